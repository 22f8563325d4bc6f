Require Import Coq.ZArith.ZArith Coq.NArith.NArith Coq.Lists.List Coq.Bool.Bool Coq.Arith.Arith Coq.micromega.Lia.
Require Import Coq.micromega.ZifyN Coq.micromega.ZifyNat.
Require Import Verif.Base Verif.Array_Model Verif.Utf8_Model Verif.Utf8_Spec Verif.Utf8_Proofs Verif.Utf8_Strings Verif.String_Model Verif.String_Spec.
Import ListNotations.
Local Open Scope N_scope.
Arguments INT64_MAX : simpl never.

Definition fits (n : nat) : Prop := (Z.of_nat n <= INT64_MAX)%Z.
Lemma idx_nat : forall i, fits i -> idx (Z.of_nat i) = i.
Proof. intros i H. unfold idx, fits, INT64_MAX in *. rewrite Z.mod_small by lia. lia. Qed.
Lemma idx_pos : forall z, (0 <= z <= INT64_MAX)%Z -> idx z = Z.to_nat z.
Proof. intros z H. unfold idx, INT64_MAX in *. rewrite Z.mod_small by lia. auto. Qed.
Lemma idx_neg : forall z, (- INT64_MAX - 1 <= z < 0)%Z -> (Z.of_nat (idx z) > INT64_MAX)%Z.
Proof. intros z H. unfold idx, INT64_MAX in *. replace (z mod 2^64)%Z with (z + 2^64)%Z; [lia|]. apply Z.mod_unique with (-1)%Z; lia. Qed.
Lemma sto_term : forall s, sto s = s ++ 0 :: [0; 0; 0].
Proof. auto. Qed.
Lemma text_app : forall a b, text (a ++ b) <-> text a /\ text b.
Proof. intros. unfold text. apply Forall_app. Qed.
Lemma text_skipn : forall n cs, text cs -> text (skipn n cs).
Proof. intros n cs H. rewrite <- (firstn_skipn n cs) in H. apply text_app in H. tauto. Qed.
Lemma text_firstn : forall n cs, text cs -> text (firstn n cs).
Proof. intros n cs H. rewrite <- (firstn_skipn n cs) in H. apply text_app in H. tauto. Qed.
Lemma encode_nonempty : forall cs, cs <> [] -> encode cs <> [].
Proof.
  intros [|x l] Hl; [congruence|]. rewrite encode_cons. intros F. apply app_eq_nil in F. destruct F as [F _].
  pose proof (utf8_nonempty x) as Hu. rewrite F in Hu. cbn in Hu. lia.
Qed.
Lemma encode_length : forall cs, (length cs <= length (encode cs))%nat.
Proof. induction cs as [|c cs IH]; auto. rewrite encode_cons, app_length. pose proof (utf8_nonempty c). cbn [length]. lia. Qed.
Lemma skipn_encode : forall i cs r, (i <= length cs)%nat -> skipn (length (encode (firstn i cs))) (encode cs ++ r) = encode (skipn i cs) ++ r.
Proof.
  intros i cs r H. rewrite <- (firstn_skipn i cs) at 2. rewrite encode_app, <- app_assoc, skipn_len_app. auto.
Qed.
Lemma encode_inj : forall a b, text a -> text b -> encode a = encode b -> a = b.
Proof.
  intros a b Ha Hb H. apply scans_encode in Ha, Hb. rewrite H in Ha. pose proof (scans_det _ _ Ha _ Hb) as E.
  clear - E. revert b E. induction a as [|x a IH]; intros [|y b] E; cbn in E; try discriminate; auto. inversion E. f_equal; [lia|auto].
Qed.

(** ** Length, indexing and substrings (C25) *)
Lemma length_ok : forall cs, text cs -> str_length (encode cs) = Ok (length cs).
Proof. intros cs H. unfold str_length. rewrite sto_term. rewrite (ustrlen_ok _ _ _ (scans_encode _ H)), map_length. auto. Qed.
Lemma index_ok : forall cs i r, text cs ->
  ustridx (encode cs ++ 0 :: r) i = Ok (if (i <=? length cs)%nat then Some (length (encode (firstn i cs))) else None).
Proof. intros. apply length_and_index. auto. Qed.

Lemma char_at_loop_ok : forall cs fuel i index r, text cs -> (length cs < fuel)%nat ->
  char_at_loop fuel (encode cs ++ 0 :: r) i index =
    Ok (match (if (i <=? index)%Z then nth_error cs (Z.to_nat (index - i)) else None) with Some c => (Z.of_N c, utf8 c) | None => (0%Z, []) end).
Proof.
  induction cs as [|c cs IH]; intros fuel i index r H Hf; (destruct fuel as [|fuel]; [cbn in Hf; lia|]); cbn [char_at_loop].
  - change (encode [] ++ 0 :: r) with (0 :: r). rewrite rd_term. cbn [obind]. destruct (i <=? index)%Z; [destruct (Z.to_nat (index - i))|]; auto.
  - inversion H as [|? ? H1 H2]; subst.
    pose proof (encode_cstring _ H) as Hc. assert (Hn : encode (c :: cs) <> []) by (apply encode_nonempty; congruence).
    destruct (rd_first _ r Hc Hn) as (b & -> & Hb). cbn [obind]. rewrite Hb. rewrite ustrscan_next by auto.
    rewrite encode_cons, <- app_assoc. rewrite next_utf8 by apply H1. cbn [obind fst snd]. rewrite skipn_len_app.
    pose proof (utf8_nonempty c) as Hu.
    destruct (i =? index)%Z eqn:E.
    + apply Z.eqb_eq in E. subst. rewrite Z.leb_refl, Z.sub_diag. cbn [Z.to_nat nth_error].
      replace (length (utf8 c) <? 8)%nat with true by (symmetry; apply Nat.ltb_lt; lia).
      rewrite firstn_app, Nat.sub_diag, firstn_all, app_nil_r. auto.
    + apply Z.eqb_neq in E. rewrite IH by (auto; cbn in Hf; lia). destruct (i <=? index)%Z eqn:E2.
      * apply Z.leb_le in E2. replace (i + 1 <=? index)%Z with true by (symmetry; apply Z.leb_le; lia).
        replace (Z.to_nat (index - i)) with (S (Z.to_nat (index - (i + 1)))) by lia. auto.
      * apply Z.leb_gt in E2. replace (i + 1 <=? index)%Z with false by (symmetry; apply Z.leb_gt; lia). auto.
Qed.
Lemma char_at_ok : forall cs index, text cs ->
  char_at (encode cs) index =
    Ok (match (if (0 <=? index)%Z then nth_error cs (Z.to_nat index) else None) with Some c => (Z.of_N c, utf8 c) | None => (0%Z, []) end).
Proof.
  intros cs index H. unfold char_at. rewrite sto_term. rewrite char_at_loop_ok; auto.
  - rewrite Z.sub_0_r. auto.
  - rewrite app_length. pose proof (encode_length cs). lia.
Qed.

Lemma encode_len0 : forall cs, (length (encode cs) =? 0)%nat = (length cs =? 0)%nat.
Proof.
  intros [|c cs]; auto. cbn [length Nat.eqb]. apply Nat.eqb_neq. pose proof (encode_length (c :: cs)). cbn [length] in *. lia.
Qed.
Lemma firstn_sto : forall i cs, firstn (length (encode (firstn i cs))) (sto (encode cs)) = encode (firstn i cs).
Proof.
  intros. rewrite sto_term. rewrite <- (firstn_skipn i cs) at 2. rewrite encode_app, <- app_assoc, firstn_app, Nat.sub_diag, firstn_all, app_nil_r. auto.
Qed.
Lemma substring_ok : forall cs loc len, text cs -> fits (length (encode cs)) ->
  (- INT64_MAX - 1 <= loc <= INT64_MAX)%Z -> (len <= INT64_MAX)%Z ->
  substring (encode cs) loc len =
    Ok (if ((0 <=? loc) && (0 <? len) && (loc + len <=? Z.of_nat (length cs)))%Z
        then Some (encode (firstn (Z.to_nat len) (skipn (Z.to_nat loc) cs))) else None).
Proof.
  intros cs loc len H Hf H1 H2. unfold substring. pose proof (encode_length cs) as Hl. unfold fits in Hf.
  destruct (len <=? 0)%Z eqn:E1; [apply Z.leb_le in E1|apply Z.leb_gt in E1].
  { replace (0 <? len)%Z with false by (symmetry; apply Z.ltb_ge; lia). rewrite andb_false_r. auto. }
  replace (0 <? len)%Z with true by (symmetry; apply Z.ltb_lt; lia). rewrite andb_true_r.
  rewrite encode_len0. destruct (length cs =? 0)%nat eqn:E0.
  { apply Nat.eqb_eq in E0. rewrite E0. destruct (0 <=? loc)%Z eqn:E2; auto. apply Z.leb_le in E2. cbn [andb].
    replace (loc + len <=? Z.of_nat 0)%Z with false by (symmetry; apply Z.leb_gt; lia). auto. }
  rewrite sto_term, index_ok by auto. destruct (0 <=? loc)%Z eqn:E2; [apply Z.leb_le in E2|apply Z.leb_gt in E2].
  - rewrite idx_pos by lia. cbn [andb]. destruct (Z.to_nat loc <=? length cs)%nat eqn:E3; [apply Nat.leb_le in E3|apply Nat.leb_gt in E3].
    + cbn [obind]. rewrite skipn_encode by auto. rewrite index_ok by (apply text_skipn; auto). rewrite idx_pos by lia. cbn [obind].
      rewrite skipn_length. destruct (Z.to_nat len <=? length cs - Z.to_nat loc)%nat eqn:E4; [apply Nat.leb_le in E4|apply Nat.leb_gt in E4].
      * replace (loc + len <=? Z.of_nat (length cs))%Z with true by (symmetry; apply Z.leb_le; lia). cbn [option_map]. unfold copy_bytes.
        rewrite skipn_encode by auto. change [0; 0; 0; 0] with (0 :: [0; 0; 0]). rewrite <- sto_term, firstn_sto. auto.
      * replace (loc + len <=? Z.of_nat (length cs))%Z with false by (symmetry; apply Z.leb_gt; lia). auto.
    + cbn [obind]. replace (loc + len <=? Z.of_nat (length cs))%Z with false by (symmetry; apply Z.leb_gt; lia). auto.
  - pose proof (idx_neg loc ltac:(lia)). replace (idx loc <=? length cs)%nat with false by (symmetry; apply Nat.leb_gt; lia). auto.
Qed.
Lemma substring_from_ok : forall cs index, text cs -> cs <> [] -> fits (length (encode cs)) -> (index <= INT64_MAX)%Z ->
  substring_from (encode cs) index =
    Ok (if ((0 <=? index) && (index <=? Z.of_nat (length cs)))%Z then Some (encode (skipn (Z.to_nat index) cs)) else None).
Proof.
  intros cs i H Hn Hf H1. unfold substring_from. destruct (i <? 0)%Z eqn:E1; [apply Z.ltb_lt in E1|apply Z.ltb_ge in E1].
  { replace (0 <=? i)%Z with false by (symmetry; apply Z.leb_gt; lia). auto. }
  replace (0 <=? i)%Z with true by (symmetry; apply Z.leb_le; lia). cbn [andb]. rewrite encode_len0.
  replace (length cs =? 0)%nat with false by (symmetry; apply Nat.eqb_neq; destruct cs; [congruence|cbn; lia]).
  rewrite sto_term, index_ok by auto. rewrite idx_pos by lia. cbn [obind].
  destruct (Z.to_nat i <=? length cs)%nat eqn:E3; [apply Nat.leb_le in E3|apply Nat.leb_gt in E3].
  - replace (i <=? Z.of_nat (length cs))%Z with true by (symmetry; apply Z.leb_le; lia). cbn [option_map]. unfold copy_bytes.
    rewrite skipn_encode by auto. do 2 f_equal.
    replace (length (encode cs) - length (encode (firstn (Z.to_nat i) cs)))%nat with (length (encode (skipn (Z.to_nat i) cs))).
    + rewrite firstn_app, Nat.sub_diag, firstn_all, app_nil_r. auto.
    + rewrite <- (firstn_skipn (Z.to_nat i) cs) at 2. rewrite encode_app, app_length. lia.
  - replace (i <=? Z.of_nat (length cs))%Z with false by (symmetry; apply Z.leb_gt; lia). auto.
Qed.
Lemma substring_to_ok : forall cs index, text cs -> cs <> [] -> fits (length (encode cs)) -> (index <= INT64_MAX)%Z ->
  substring_to (encode cs) index =
    Ok (if ((0 <=? index) && (index <=? Z.of_nat (length cs)))%Z then Some (encode (firstn (Z.to_nat index) cs)) else None).
Proof.
  intros cs i H Hn Hf H1. unfold substring_to. destruct (i <? 0)%Z eqn:E1; [apply Z.ltb_lt in E1|apply Z.ltb_ge in E1].
  { replace (0 <=? i)%Z with false by (symmetry; apply Z.leb_gt; lia). auto. }
  replace (0 <=? i)%Z with true by (symmetry; apply Z.leb_le; lia). cbn [andb]. rewrite encode_len0.
  replace (length cs =? 0)%nat with false by (symmetry; apply Nat.eqb_neq; destruct cs; [congruence|cbn; lia]).
  rewrite sto_term, index_ok by auto. rewrite idx_pos by lia. cbn [obind].
  destruct (Z.to_nat i <=? length cs)%nat eqn:E3; [apply Nat.leb_le in E3|apply Nat.leb_gt in E3].
  - replace (i <=? Z.of_nat (length cs))%Z with true by (symmetry; apply Z.leb_le; lia). cbn [option_map]. unfold copy_bytes. cbn [skipn].
    change [0; 0; 0; 0] with (0 :: [0; 0; 0]). rewrite <- sto_term, firstn_sto. auto.
  - replace (i <=? Z.of_nat (length cs))%Z with false by (symmetry; apply Z.leb_gt; lia). auto.
Qed.

(** ** Searching (C28) *)
Lemma occurs_skipn : forall pat cs k i, (k <= length cs)%nat -> (occurs_at pat (skipn k cs) i <-> occurs_at pat cs (k + i)).
Proof.
  intros pat cs k i Hk. split; intros (pre & post & H & Hl).
  - exists (firstn k cs ++ pre), post. split; [|rewrite app_length, firstn_length; lia].
    rewrite <- app_assoc, <- H, firstn_skipn. auto.
  - exists (skipn k pre), post. split; [|rewrite skipn_length; lia].
    rewrite H. rewrite skipn_app. replace (k - length pre)%nat with 0%nat by lia. auto.
Qed.
Lemma occurs_bound : forall pat cs i, occurs_at pat cs i -> (i + length pat <= length cs)%nat.
Proof. intros pat cs i (pre & post & -> & <-). rewrite !app_length. lia. Qed.

Lemma range_ok : forall cs pat start, text cs -> text pat -> pat <> [] -> fits (length (encode cs)) -> (start <= length cs)%nat ->
  exists o, range_of_string (encode cs) (encode pat) (Z.of_nat start) = Ok o /\
    match o with
    | Some (l, n) => exists i, l = Z.of_nat i /\ n = length pat /\ first_from pat cs start i
    | None => forall i, (start <= i)%nat -> ~ occurs_at pat cs i
    end.
Proof.
  intros cs pat start Hc Hp Hn Hf Hs. unfold range_of_string. pose proof (encode_length cs) as Hl. rewrite encode_len0.
  destruct (length cs =? 0)%nat eqn:E0.
  { exists None. split; auto. apply Nat.eqb_eq in E0. intros i _ Ho. apply occurs_bound in Ho. destruct pat; [congruence|cbn in Ho; lia]. }
  assert (Hp' : (if (0 <? Z.of_nat start)%Z then ustridx (sto (encode cs)) (idx (Z.of_nat start)) else Ok (Some 0%nat)) =
    Ok (Some (length (encode (firstn start cs))))).
  { destruct (0 <? Z.of_nat start)%Z eqn:E1.
    - rewrite sto_term, index_ok by auto. rewrite idx_nat by (unfold fits in *; lia). replace (start <=? length cs)%nat with true by (symmetry; apply Nat.leb_le; auto). auto.
    - apply Z.ltb_ge in E1. replace start with 0%nat by lia. auto. }
  rewrite Hp'. cbn [obind]. rewrite !sto_term.
  destruct (rd_first _ [0; 0; 0] (encode_cstring _ Hp) (encode_nonempty _ Hn)) as (b & -> & Hb). cbn [obind]. rewrite Hb.
  rewrite skipn_encode by auto.
  destruct (search_wellformed (skipn start cs) pat [0; 0; 0] [0; 0; 0] (text_skipn _ _ Hc) Hp Hn) as [(o & -> & Ho) _]. cbn [obind].
  eexists. split; [reflexivity|]. destruct o as [[loc len]|]; cbn [option_map fst snd].
  - destruct Ho as (A & B & C). exists (start + loc)%nat. split; [lia|]. split; auto. split; [lia|]. split; [apply occurs_skipn in A; auto|].
    intros j Hj Ho. apply (C (j - start)%nat); [lia|]. apply occurs_skipn; auto. replace (start + (j - start))%nat with j by lia. auto.
  - intros i Hi Ho'. apply (Ho (i - start)%nat). apply occurs_skipn; auto. replace (start + (i - start))%nat with i by lia. auto.
Qed.

Lemma has_prefix_ok : forall cs pat, text cs -> text pat -> pat <> [] -> fits (length (encode cs)) ->
  exists b, has_prefix (encode cs) (encode pat) = Ok b /\ (b = true <-> exists post, cs = pat ++ post).
Proof.
  intros cs pat Hc Hp Hn Hf. unfold has_prefix. destruct (range_ok cs pat 0 Hc Hp Hn Hf ltac:(lia)) as (o & E & Ho).
  change 0%Z with (Z.of_nat 0). rewrite E. cbn [obind]. eexists. split; [reflexivity|].
  assert (Q : (exists post, cs = pat ++ post) <-> occurs_at pat cs 0).
  { split. - intros (post & ->). exists [], post. auto.
    - intros (pre & post & -> & Hl). destruct pre; [|discriminate]. exists post. auto. }
  rewrite Q. destruct o as [[l n]|].
  - destruct Ho as (i & -> & -> & H1 & H2 & H3). destruct i as [|i]; cbn.
    + tauto.
    + split; [discriminate|]. intros F. exfalso. apply (H3 0%nat); auto. lia.
  - split; [discriminate|]. intros F. exfalso. apply (Ho 0%nat); auto.
Qed.
Lemma has_substring_ok : forall cs pat, text cs -> text pat -> pat <> [] -> fits (length (encode cs)) ->
  exists b, has_substring (encode cs) (encode pat) = Ok b /\ (b = true <-> exists pre post, cs = pre ++ pat ++ post).
Proof.
  intros cs pat Hc Hp Hn Hf. unfold has_substring. destruct (range_ok cs pat 0 Hc Hp Hn Hf ltac:(lia)) as (o & E & Ho).
  change 0%Z with (Z.of_nat 0). rewrite E. cbn [obind]. eexists. split; [reflexivity|]. destruct o as [[l n]|].
  - destruct Ho as (i & _ & _ & _ & (pre & post & H & _) & _). split; auto. intros _. eauto.
  - split; [discriminate|]. intros (pre & post & H). exfalso. apply (Ho (length pre)); [lia|]. exists pre, post. auto.
Qed.
Lemma has_suffix_ok : forall cs pat, text cs -> text pat -> pat <> [] -> fits (length (encode cs)) ->
  exists b, has_suffix (encode cs) (encode pat) = Ok b /\ (b = true <-> exists pre, cs = pre ++ pat).
Proof.
  intros cs pat Hc Hp Hn Hf. unfold has_suffix. rewrite !length_ok by auto. cbn [obind].
  destruct (length pat <=? length cs)%nat eqn:E1; [apply Nat.leb_le in E1|apply Nat.leb_gt in E1].
  - destruct (range_ok cs pat (length cs - length pat) Hc Hp Hn Hf ltac:(lia)) as (o & E & Ho).
    rewrite <- Nat2Z.inj_sub by auto. rewrite E. cbn [obind]. eexists. split; [reflexivity|]. destruct o as [[l n]|].
    + destruct Ho as (i & _ & _ & H1 & (pre & post & H & Hl) & _). split; auto. intros _. exists pre.
      assert (length post = 0)%nat by (assert (Q := f_equal (@length N) H); rewrite !app_length in Q; lia). destruct post; [|discriminate]. rewrite app_nil_r in H. auto.
    + split; [discriminate|]. intros (pre & H). exfalso. apply (Ho (length pre)).
      * rewrite H, app_length. lia.
      * exists pre, []. rewrite app_nil_r. auto.
  - eexists. split; [reflexivity|]. split; [discriminate|]. intros (pre & ->). rewrite app_length in E1. lia.
Qed.

(** ** Replacing (C29) *)
Lemma ascii_encode : forall cs, ascii cs -> encode cs = cs.
Proof.
  induction 1 as [|c cs H _ IH]; auto. rewrite encode_cons, IH. unfold utf8. replace (c <? 128) with true by (symmetry; apply N.ltb_lt; lia). auto.
Qed.
Lemma ascii_text : forall cs, ascii cs -> text cs.
Proof. intros cs H. eapply Forall_impl; [|exact H]. intros c Hc. cbv beta in Hc. unfold char_ok, scalar. lia. Qed.
Lemma ascii_app : forall a b, ascii (a ++ b) <-> ascii a /\ ascii b.
Proof. intros. unfold ascii. apply Forall_app. Qed.

Lemma check_fits : forall l n k, (l + n <= k)%nat -> fits k -> check_range (Z.of_nat l) (Z.of_nat n) k = Ok (Some (l, n)).
Proof.
  intros l n k H Hf. unfold check_range, fits in *.
  replace (0 <=? Z.of_nat l)%Z with true by (symmetry; apply Z.leb_le; lia). replace (0 <=? Z.of_nat n)%Z with true by (symmetry; apply Z.leb_le; lia).
  cbn [andb]. replace (INT64_MAX <? Z.of_nat l + Z.of_nat n)%Z with false by (symmetry; apply Z.ltb_ge; lia).
  replace (Z.of_nat l + Z.of_nat n <=? Z.of_nat k)%Z with true by (symmetry; apply Z.leb_le; lia). rewrite !Nat2Z.id. auto.
Qed.
Lemma replace_app : forall a b c d, replace_bytes (a ++ b ++ c) (length a) (length b) d = Ok (a ++ d ++ c).
Proof.
  intros. unfold replace_bytes. rewrite !app_length.
  replace (length a + length b <=? length a + (length b + length c))%nat with true by (symmetry; apply Nat.leb_le; lia).
  rewrite firstn_app, Nat.sub_diag, firstn_all, app_nil_r. f_equal. f_equal. f_equal.
  rewrite app_assoc. rewrite <- app_length, skipn_len_app. auto.
Qed.

Lemma replace_loop_ok : forall pat rep fuel don rest, ascii pat -> ascii rep -> pat <> [] -> ascii don -> ascii rest ->
  fits (length don + length rest * S (length rep)) -> (length rest < fuel)%nat ->
  exists out, replace_loop fuel (don ++ rest) pat rep (length rep) (Z.of_nat (length don)) = Ok (don ++ out) /\ replaced pat rep rest out.
Proof.
  intros pat rep. induction fuel as [|fuel IH]; intros don rest Hp Hr Hn Hd Hrest Hf Hfu; [lia|]. cbn [replace_loop].
  assert (Ha : ascii (don ++ rest)) by (apply ascii_app; auto).
  assert (Hf' : fits (length (don ++ rest))) by (unfold fits in *; rewrite app_length; lia).
  destruct (range_ok (don ++ rest) pat (length don)) as (o & E & Ho); auto using ascii_text; [rewrite ascii_encode; auto|rewrite app_length; lia|].
  rewrite !ascii_encode in E by auto. rewrite E. cbn [obind]. destruct o as [[l n]|].
  - destruct Ho as (i & -> & -> & H1 & H2 & H3).
    assert (Q : forall j, occurs_at pat rest j <-> occurs_at pat (don ++ rest) (length don + j)).
    { intros j. rewrite <- occurs_skipn by (rewrite app_length; lia). rewrite skipn_len_app. tauto. }
    replace i with (length don + (i - length don))%nat in H2 by lia. apply Q in H2. destruct H2 as (pre & post & H2 & Hl).
    assert (Hi : i = (length don + length pre)%nat) by lia.
    unfold replace_substring. rewrite check_fits; auto.
    2:{ rewrite H2, !app_length. lia. }
    cbn [obind]. rewrite H2, app_assoc, Hi, <- app_length, replace_app. cbn [obind].
    rewrite H2 in Hrest. apply ascii_app in Hrest. destruct Hrest as [R1 R2]. apply ascii_app in R2. destruct R2 as [R2 R3].
    destruct (IH ((don ++ pre) ++ rep) post) as (out & Eo & Hrep); auto.
    + repeat (apply ascii_app; split; auto).
    + rewrite H2 in Hf. unfold fits in *. rewrite !app_length in *. assert (1 <= length pat)%nat by (destruct pat; [congruence|cbn; lia]). nia.
    + rewrite H2, !app_length in Hfu. assert (1 <= length pat)%nat by (destruct pat; [congruence|cbn; lia]). lia.
    + exists (pre ++ rep ++ out). split.
      * rewrite <- Nat2Z.inj_add, <- app_length. rewrite (app_assoc (don ++ pre)). rewrite Eo. rewrite <- !app_assoc. auto.
      * apply rep_first; auto. split; [lia|]. split; [exists pre, post; auto|].
        intros j Hj F. rewrite <- H2 in F. apply Q in F. apply (H3 (length don + j)%nat); auto. lia.
  - exists rest. split; auto. constructor. intros j F. apply (Ho (length don + j)%nat); [lia|].
    rewrite <- occurs_skipn by (rewrite app_length; lia). rewrite skipn_len_app. auto.
Qed.
Lemma replace_ok : forall cs pat rep, ascii cs -> ascii pat -> ascii rep -> pat <> [] -> fits (length cs * S (length rep)) ->
  exists out, (forall fuel, (length cs < fuel)%nat -> replace_occurrences fuel cs pat rep = Ok out) /\ replaced pat rep cs out.
Proof.
  intros cs pat rep H1 H2 H3 H4 H5.
  destruct (replace_loop_ok pat rep (S (length cs)) [] cs) as (out & E & H); auto; [constructor|].
  exists out. split; auto. intros fuel Hfu. unfold replace_occurrences.
  rewrite <- (ascii_encode rep) at 1 by auto. rewrite length_ok by auto using ascii_text. cbn [obind].
  destruct (replace_loop_ok pat rep fuel [] cs) as (out' & E' & H'); auto; [constructor|].
  cbn [app length] in E, E'. change (Z.of_nat 0) with 0%Z in E'. rewrite E'.
  assert (Q : forall k1 k2 s st a b, replace_loop k1 s pat rep (length rep) st = Ok a -> replace_loop k2 s pat rep (length rep) st = Ok b -> a = b).
  { induction k1 as [|k1 IH]; intros k2 s st a b A B; [discriminate|]. destruct k2 as [|k2]; [discriminate|]. cbn [replace_loop] in A, B.
    destruct (range_of_string s pat st) as [[[l n]|]| | |]; cbn [obind] in A, B; try congruence.
    destruct (replace_substring s l (Z.of_nat n) rep); cbn [obind] in A, B; try congruence. eauto. }
  f_equal. eapply Q; [exact E'|exact E].
Qed.
Lemma first_unique : forall pat cs s i j, first_from pat cs s i -> first_from pat cs s j -> i = j.
Proof.
  intros pat cs s i j (A1 & A2 & A3) (B1 & B2 & B3). destruct (Nat.lt_trichotomy i j) as [H|[H|H]]; auto; exfalso.
  - apply (B3 i); auto. - apply (A3 j); auto.
Qed.
Lemma app_same_length : forall A (a b c d : list A), length a = length c -> a ++ b = c ++ d -> a = c /\ b = d.
Proof. induction a as [|x a IH]; intros b [|y c] d Hl H; cbn in *; try discriminate; auto. inversion H. destruct (IH b c d) as [-> ->]; auto. Qed.
Lemma replaced_fun : forall pat rep cs o1, replaced pat rep cs o1 -> forall o2, replaced pat rep cs o2 -> o1 = o2.
Proof.
  induction 1 as [cs H|pre post out H1 H2 IH]; intros o2 H'.
  - inversion H' as [|pre post out A B C D]; auto. exfalso. apply (H (length pre)). subst. apply A.
  - inversion H' as [? A|pre' post' out' A B C D].
    + subst. exfalso. apply (A (length pre)). apply H1.
    + rewrite C in A. pose proof (first_unique _ _ _ _ _ H1 A) as E. apply app_same_length in C; auto. destruct C as [-> C].
      apply app_inv_head in C. subst. f_equal. f_equal. auto.
Qed.
