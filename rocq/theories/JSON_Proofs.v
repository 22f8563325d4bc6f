(** Proofs about JSON. *)
Require Import Coq.ZArith.ZArith Coq.NArith.NArith Coq.Lists.List Coq.Bool.Bool Coq.Arith.Arith Coq.micromega.Lia.
Require Import Verif.Base Verif.Utf8_Model Verif.Utf8_Spec Verif.Utf8_Proofs Verif.Utf8_Strings Verif.Strtonum_Model Verif.Strtonum_Spec Verif.Strtonum_Proofs Verif.JSON_Model Verif.JSON_Spec.
Import ListNotations.
Local Open Scope N_scope.

Lemma scan_char c r : char_ok c -> ustrscan (utf8 c ++ r) = Ok (Z.of_N c, length (utf8 c)).
Proof. intros H. apply (write_then_scan c 8 r H). lia. Qed.
Lemma scan_ascii b r : 0 < b < 128 -> ustrscan (b :: r) = Ok (Z.of_N b, 1%nat).
Proof.
  intros H. assert (U: utf8 b = [b]) by (unfold utf8; destruct (N.ltb_spec b 0x80); auto; lia).
  pose proof (scan_char b r) as S. rewrite U in S. apply S. split; [split|]; lia.
Qed.
Lemma scan_nul r : ustrscan (0 :: r) = Ok (0%Z, 0%nat). Proof. reflexivity. Qed.
Lemma skipn_pre {A} (a b : list A) n : skipn (length a + n) (a ++ b) = skipn n b.
Proof. rewrite skipn_app, Nat.add_comm, skipn_all2 by lia. cbn. f_equal. lia. Qed.
Lemma skipn_pre0 {A} (a b : list A) : skipn (length a) (a ++ b) = b.
Proof. apply skipn_len_app. Qed.
Lemma firstn_pre {A} (a b : list A) : firstn (length a) (a ++ b) = a.
Proof. rewrite firstn_app, Nat.sub_diag, firstn_all. cbn. apply app_nil_r. Qed.
(** ** White space and words *)
Lemma isspace_white b : white b -> isspace (Z.of_N b) = Ok true.
Proof.
  intros W. unfold isspace, white in *. replace ((-1 <=? Z.of_N b) && (Z.of_N b <=? 255))%Z with true by (symmetry; apply andb_true_intro; split; apply Z.leb_le; lia).
  destruct (Z.leb_spec 9 (Z.of_N b)), (Z.leb_spec (Z.of_N b) 13), (Z.eqb_spec (Z.of_N b) 32); cbn [andb orb]; auto; lia.
Qed.
Lemma isspace_other b : b < 128 -> ~ white b -> isspace (Z.of_N b) = Ok false.
Proof.
  intros L W. unfold isspace, white in *. replace ((-1 <=? Z.of_N b) && (Z.of_N b <=? 255))%Z with true by (symmetry; apply andb_true_intro; split; apply Z.leb_le; lia).
  destruct (Z.leb_spec 9 (Z.of_N b)), (Z.leb_spec (Z.of_N b) 13), (Z.eqb_spec (Z.of_N b) 32); cbn [andb orb]; auto; lia.
Qed.
Lemma skip_white w s ch n : Forall white w -> ustrscan s = Ok (ch, n) -> n <> 0%nat -> isspace ch = Ok false -> forall fuel, (length w < fuel)%nat -> skip_space fuel (w ++ s) = Ok (ch, n, s).
Proof.
  intros W S Nz I. induction W as [|b w Hb _ IH]; intros [|fuel] L; cbn [length] in L; try lia; cbn [app skip_space].
  - rewrite S. cbn [obind]. destruct (Nat.eqb_spec n 0); [congruence|]. rewrite I. reflexivity.
  - rewrite scan_ascii by (unfold white in Hb; lia). cbn [obind Nat.eqb]. rewrite isspace_white by auto. cbn [obind skipn]. apply IH. lia.
Qed.
Lemma skip_white_end w r : Forall white w -> forall fuel, (length w < fuel)%nat -> skip_space fuel (w ++ 0 :: r) = Ok (0%Z, 0%nat, 0 :: r).
Proof.
  intros W. induction W as [|b w Hb _ IH]; intros [|fuel] L; cbn [length] in L; try lia; cbn [app skip_space]; [reflexivity|].
  rewrite scan_ascii by (unfold white in Hb; lia). cbn [obind Nat.eqb]. rewrite isspace_white by auto. cbn [obind skipn]. apply IH. lia.
Qed.
Definition specials : list N := [44; 58; 91; 93; 123; 125].
Definition wordbyte (b : N) : Prop := 0 < b < 128 /\ ~ white b /\ ~ In b specials.
Lemma special_yes b : In b specials -> special (Z.of_N b) = true.
Proof. cbn. intros [<-|[<-|[<-|[<-|[<-|[<-|[]]]]]]]; reflexivity. Qed.
Lemma special_no b : wordbyte b -> special (Z.of_N b) = false.
Proof.
  intros ((A & B) & _ & S). unfold special. rewrite Z.mod_small by lia. cbn in S. rewrite !orb_false_iff, !Z.eqb_neq. repeat split; try lia; intros E; apply S; lia.
Qed.
(** What ends a word. *)
Definition delim (rest : list N) : Prop := match rest with [] => False | b :: _ => white b \/ In b specials \/ b = 0 end.
Lemma delim_app w r : Forall white w -> delim r -> delim (w ++ r).
Proof. intros W D. destruct W; cbn; auto. Qed.
Lemma scan_word_ok pre s rest : Forall wordbyte s -> delim rest -> forall fuel, (length s < fuel)%nat -> scan_word fuel (pre ++ s ++ rest) (length pre) = Ok (length pre + length s)%nat.
Proof.
  intros F D. revert pre. induction F as [|b s Hb _ IH]; intros pre [|fuel] L; cbn [length] in L; try lia; cbn [scan_word]; rewrite skipn_pre0; cbn [app].
  - destruct rest as [|b rest]; [destruct D|]. rewrite Nat.add_0_r. destruct D as [W|[S|Z]].
    + rewrite scan_ascii by (unfold white in W; lia). cbn [obind Nat.eqb]. rewrite isspace_white by auto. reflexivity.
    + rewrite scan_ascii by (cbn in S; lia). cbn [obind Nat.eqb]. rewrite special_yes by auto.
      assert (E: exists w, isspace (Z.of_N b) = Ok w) by (cbn in S; decompose [or] S; subst; try (eexists; reflexivity); tauto). destruct E as (w & ->). cbn [obind]. now rewrite orb_true_r.
    + subst b. reflexivity.
  - destruct Hb as (R & W & S). rewrite scan_ascii by auto. cbn [obind Nat.eqb]. rewrite isspace_other by (auto; lia). cbn [obind]. rewrite special_no by (split; auto). cbn [orb].
    specialize (IH (pre ++ [b]) fuel ltac:(lia)). rewrite <- app_assoc in IH. cbn [app] in IH. rewrite app_length in IH. cbn [length] in IH. rewrite IH. f_equal. cbn [length]. lia.
Qed.
Section Tokens.
Context (vec : bool).
Lemma token_special fuel want w b rest : Forall white w -> In b specials -> scan_token (S fuel) vec want (w ++ b :: rest) = Ok (mkT (b :: rest) 1, None, rest).
Proof.
  intros W S. cbn [scan_token]. assert (R: 0 < b < 128) by (cbn in S; lia). assert (Nw: ~ white b) by (unfold white; cbn in S; lia).
  rewrite (skip_white w (b :: rest) (Z.of_N b) 1); [|auto|now apply scan_ascii|lia|apply isspace_other; auto; lia|rewrite app_length; cbn; lia].
  cbn [obind Nat.eqb]. destruct (Z.eqb_spec (Z.of_N b) 34) as [E|_]; [cbn in S; lia|]. destruct (Z.eqb_spec (Z.of_N b) 35) as [E|_]; [cbn in S; lia|]. cbn [andb].
  change (rd (b :: rest) 0) with (Ok b). cbn [obind]. rewrite special_yes by auto. reflexivity.
Qed.
Lemma token_word fuel want w b s rest : Forall white w -> wordbyte b -> b <> 34 -> b <> 35 -> Forall wordbyte s -> delim rest ->
  scan_token (S fuel) vec want (w ++ (b :: s) ++ rest) = Ok (mkT ((b :: s) ++ rest) (Z.of_nat (S (length s))), None, rest).
Proof.
  intros W B Q H F D. cbn [scan_token]. pose proof B as (R & Nw & Sp).
  rewrite (skip_white w ((b :: s) ++ rest) (Z.of_N b) 1); [|auto|now apply scan_ascii|lia|apply isspace_other; auto; lia|rewrite !app_length; cbn; lia].
  cbn [obind Nat.eqb]. destruct (Z.eqb_spec (Z.of_N b) 34) as [E|_]; [lia|]. destruct (Z.eqb_spec (Z.of_N b) 35) as [E|_]; [lia|]. cbn [andb].
  change (rd ((b :: s) ++ rest) 0) with (Ok b). cbn [obind]. rewrite special_no by auto.
  pose proof (scan_word_ok [b] s rest F D (S (length ((b :: s) ++ rest))) ltac:(rewrite app_length; cbn; lia)) as X. cbn [length app Nat.add] in X. cbn [app length]. rewrite X. cbn [obind].
  cbn [skipn]. rewrite skipn_pre0. reflexivity.
Qed.
Lemma token_end fuel want w : Forall white w -> scan_token (S fuel) vec want (w ++ [0]) = Ok (mkT [0] 0, None, [0]).
Proof. intros W. cbn [scan_token]. rewrite skip_white_end by (auto; rewrite app_length; cbn; lia). reflexivity. Qed.
End Tokens.
(** ** Strings *)
Lemma hex_ok a x : hex a x -> hex_digit a = Some (Z.of_N x) /\ 48 <= a <= 102 /\ a <> 88 /\ x < 16.
Proof.
  intros H. destruct H as [x L|x L|x L]; unfold hex_digit.
  - replace ((48 <=? 48 + x) && (48 + x <=? 57)) with true by (symmetry; apply andb_true_intro; split; apply N.leb_le; lia). repeat split; try lia. f_equal. lia.
  - replace ((48 <=? 97 + x) && (97 + x <=? 57)) with false by (symmetry; apply andb_false_iff; right; apply N.leb_gt; lia).
    replace ((97 <=? 97 + x) && (97 + x <=? 102)) with true by (symmetry; apply andb_true_intro; split; apply N.leb_le; lia). repeat split; try lia. f_equal. lia.
  - replace ((48 <=? 65 + x) && (65 + x <=? 57)) with false by (symmetry; apply andb_false_iff; right; apply N.leb_gt; lia).
    replace ((97 <=? 65 + x) && (65 + x <=? 102)) with false by (symmetry; apply andb_false_iff; left; apply N.leb_gt; lia).
    replace ((65 <=? 65 + x) && (65 + x <=? 70)) with true by (symmetry; apply andb_true_intro; split; apply N.leb_le; lia). repeat split; try lia. f_equal. lia.
Qed.
Lemma strtol_ok a b c d x y z w : hex a x -> hex b y -> hex c z -> hex d w -> strtol16 [a; b; c; d] = Z.of_N (4096 * x + 256 * y + 16 * z + w).
Proof.
  intros A B C D. destruct (hex_ok a x A) as (Ea & Ra & Xa & La), (hex_ok b y B) as (Eb & Rb & Xb & Lb), (hex_ok c z C) as (Ec & Rc & _ & Lc), (hex_ok d w D) as (Ed & Rd & _ & Ld).
  unfold strtol16. cbn [hex_space]. replace ((9 <=? a) && (a <=? 13) || (a =? 32)) with false.
  2: { symmetry. apply orb_false_iff. split; [apply andb_false_iff; right; apply N.leb_gt; lia|apply N.eqb_neq; lia]. }
  assert (H: hex_digits 0 [a; b; c; d] = Z.of_N (4096 * x + 256 * y + 16 * z + w)) by (cbn [hex_digits]; rewrite Ea, Eb, Ec, Ed; lia).
  assert (U: hex_unsigned [a; b; c; d] = hex_digits 0 [a; b; c; d]).
  { unfold hex_unsigned. replace ((b =? 120) || (b =? 88)) with false by (symmetry; apply orb_false_iff; split; apply N.eqb_neq; lia). cbn [andb].
    destruct a as [|p]; auto. do 6 (destruct p as [p|p|]; auto). }
  rewrite <- H, <- U. destruct a as [|p]; [lia|]. do 6 (destruct p as [p|p|]; auto; try lia).
Qed.
Lemma until_nul_app s r : ~ In 0 s -> until_nul (s ++ 0 :: r) = s.
Proof. induction s as [|b s IH]; intros H; cbn; auto. destruct (N.eqb_spec b 0); [subst; exfalso; apply H; now left|]. rewrite IH; auto. intros X. apply H. now right. Qed.
Lemma until_nul_id s : ~ In 0 s -> until_nul s = s.
Proof. induction s as [|b s IH]; intros H; cbn; auto. destruct (N.eqb_spec b 0); [subst; exfalso; apply H; now left|]. rewrite IH; auto. intros X. apply H. now right. Qed.
Lemma scan_unicode_ok want a b c d x y z w r : hex a x -> hex b y -> hex c z -> hex d w -> char_ok (4096 * x + 256 * y + 16 * z + w) ->
  scan_unicode want (a :: b :: c :: d :: r) = Ok (utf8 (4096 * x + 256 * y + 16 * z + w)).
Proof.
  intros A B C D K. unfold scan_unicode.
  replace (rd (a :: b :: c :: d :: r) 0) with (Ok a) by reflexivity. replace (rd (a :: b :: c :: d :: r) 1) with (Ok b) by reflexivity.
  replace (rd (a :: b :: c :: d :: r) 2) with (Ok c) by reflexivity. replace (rd (a :: b :: c :: d :: r) 3) with (Ok d) by reflexivity. cbn [obind].
  rewrite until_nul_id. 2: { destruct (hex_ok a x A) as (_ & Ra & _), (hex_ok b y B) as (_ & Rb & _), (hex_ok c z C) as (_ & Rc & _), (hex_ok d w D) as (_ & Rd & _). cbn. lia. }
  rewrite (strtol_ok a b c d x y z w) by auto. destruct (write_then_scan _ 8 [] K) as [-> _]; [lia|]. cbn [obind fst snd].
  pose proof (utf8_nonempty (4096 * x + 256 * y + 16 * z + w)). destruct (Nat.eqb_spec (length (utf8 (4096 * x + 256 * y + 16 * z + w))) 0); [lia|]. cbn [andb].
  rewrite until_nul_app; auto. apply utf8_nonzero. apply K.
Qed.
Lemma item_len c s : item c s -> (1 <= length s)%nat.
Proof. intros H. destruct H; try (cbn; lia). apply utf8_nonempty. Qed.
(** One item. *)
Lemma item_step c s : item c s -> forall fuel want pre r buf,
  scan_string (S fuel) want (pre ++ s ++ r) (length pre) buf = scan_string fuel want (pre ++ s ++ r) (length pre + length s) (buf ++ utf8 c).
Proof.
  intros H fuel want pre r buf.
  assert (Esc: forall e x, item c [92; e] -> 0 < e < 128 -> e <> 117 ->
    (if (Z.of_N e =? 92)%Z then [92] else if (Z.of_N e =? 34)%Z then [34] else if (Z.of_N e =? 98)%Z then [8] else if (Z.of_N e =? 102)%Z then [12]
                 else if (Z.of_N e =? 110)%Z then [10] else if (Z.of_N e =? 114)%Z then [13] else if (Z.of_N e =? 116)%Z then [9] else if (Z.of_N e =? 47)%Z then [47] else []) = x ->
    scan_string (S fuel) want (pre ++ [92; e] ++ r) (length pre) buf = scan_string fuel want (pre ++ [92; e] ++ r) (length pre + 2) (buf ++ x)).
  { intros e x _ R Nu Ex. cbn [scan_string]. rewrite skipn_pre0. cbn [app]. rewrite scan_ascii by lia. cbn [obind Nat.eqb]. change (Z.of_N 92 =? 92)%Z with true. cbv iota.
    rewrite skipn_pre. cbn [skipn]. rewrite scan_ascii by lia. cbn [obind]. destruct (Z.eqb_spec (Z.of_N e) 117); [lia|]. rewrite Ex. f_equal. lia. }
  destruct H; try (apply Esc; [constructor|lia|lia|reflexivity]).
  - cbn [scan_string]. rewrite skipn_pre0, scan_char by auto. cbn [obind]. pose proof (utf8_nonempty c). destruct (Nat.eqb_spec (length (utf8 c)) 0); [lia|].
    destruct (Z.eqb_spec (Z.of_N c) 92); [lia|]. destruct (Z.eqb_spec (Z.of_N c) 34); [lia|]. rewrite firstn_pre. reflexivity.
  - cbn [scan_string]. rewrite skipn_pre0. cbn [app]. rewrite scan_ascii by lia. cbn [obind Nat.eqb]. change (Z.of_N 92 =? 92)%Z with true. cbv iota.
    rewrite skipn_pre. cbn [skipn]. rewrite scan_ascii by lia. cbn [obind]. change (Z.of_N 117 =? 117)%Z with true. cbv iota.
    rewrite <- Nat.add_assoc, skipn_pre. cbn [skipn Nat.add]. rewrite (scan_unicode_ok want a b c d x y z w) by auto. cbn [obind]. f_equal. cbn. lia.
Qed.
Lemma scan_string_ok cs t : items cs t -> forall fuel want pre r buf, (length t < fuel)%nat ->
  scan_string fuel want (pre ++ t ++ 34 :: r) (length pre) buf = Ok ((length pre + length t + 1)%nat, buf ++ encode cs).
Proof.
  intros I. induction I as [|c cs s t H I IH]; intros fuel want pre r buf L.
  - destruct fuel as [|fuel]; [cbn in L; lia|]. cbn [scan_string]. rewrite skipn_pre0. cbn [app]. rewrite scan_ascii by lia. cbn [obind Nat.eqb]. change (Z.of_N 34 =? 92)%Z with false. change (Z.of_N 34 =? 34)%Z with true. cbv iota.
    rewrite app_nil_r. do 2 f_equal. cbn. lia.
  - rewrite app_length in L. pose proof (item_len c s H). destruct fuel as [|fuel]; [lia|]. rewrite <- app_assoc, (item_step c s H).
    specialize (IH fuel want (pre ++ s) r (buf ++ utf8 c) ltac:(lia)). rewrite <- !app_assoc in IH. rewrite app_length in IH. rewrite IH, encode_cons, app_length. f_equal. f_equal. lia.
Qed.
Lemma token_string vec fuel want w cs t rest : Forall white w -> items cs t ->
  scan_token (S fuel) vec want (w ++ (34 :: t ++ [34]) ++ rest) = Ok (mkT ((34 :: t ++ [34]) ++ rest) (Z.of_nat (length t + 2)), if want then Some (JStr (encode cs)) else None, rest).
Proof.
  intros W I. cbn [scan_token]. rewrite (skip_white w ((34 :: t ++ [34]) ++ rest) 34 1); [|auto|apply (scan_ascii 34); lia|lia|reflexivity|rewrite !app_length; cbn; lia].
  cbn [obind Nat.eqb]. change (34 =? 34)%Z with true. cbv iota.
  pose proof (scan_string_ok cs t I (S (length ((34 :: t ++ [34]) ++ rest))) want [34] rest [] ltac:(rewrite app_length; cbn; rewrite app_length; cbn; lia)) as X.
  cbn [app length] in X. cbn [app]. rewrite <- app_assoc. cbn [app]. cbn [length]. rewrite <- app_assoc in X. cbn [app] in X. rewrite X. cbn [obind].
  replace (1 + length t + 1)%nat with (length t + 2)%nat by lia. do 2 f_equal. rewrite app_comm_cons. replace (length t + 2)%nat with (length (34%N :: t) + 1)%nat by (cbn; lia). now rewrite skipn_pre.
Qed.
