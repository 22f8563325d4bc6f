(** Proofs about the string functions of DKUnicode.c. *)
Require Import Coq.ZArith.ZArith Coq.NArith.NArith Coq.Lists.List Coq.Bool.Bool Coq.Arith.Arith Coq.micromega.Lia Coq.micromega.ZifyN Coq.micromega.ZifyNat.
Require Import Verif.Base Verif.Utf8_Model Verif.Utf8_Spec Verif.Utf8_Proofs.
Import ListNotations.
Local Open Scope N_scope.
Ltac Zify.zify_post_hook ::= Z.div_mod_to_equations.

(** ** dk_ustrwrite *)
Lemma append_utf8 : forall c cap, scalar c -> N.of_nat (length (utf8 c)) <= cap \/ (c < 128) -> u8_append cap c = Some (utf8 c).
Proof.
  intros c cap [H1 H2] Hcap. unfold u8_append, utf8 in *.
  assert (A : forall x, x < 64 -> N.lor x 0x80 = 128 + x) by (intros x Hx; rewrite N.lor_comm; apply (lor6 2 x Hx)).
  assert (M : forall x, N.land x 0x3f = x mod 64) by (intros; apply (land_mod x 6)).
  assert (L : forall x n, N.shiftr x n = x / 2^n) by (intros; apply N.shiftr_div_pow2).
  rewrite !M, !L. rewrite !A by lia. change (2^6) with 64. change (2^12) with 4096. change (2^18) with 262144.
  destruct (c <? 128) eqn:C1; [apply N.ltb_lt in C1; ok_true (c <=? 127); auto|apply N.ltb_ge in C1]. ok_false (c <=? 127).
  destruct (c <? 2048) eqn:C2; [apply N.ltb_lt in C2|apply N.ltb_ge in C2].
  { cbn [length] in Hcap. ok_true (c <=? 2047). ok_true (1 <? cap). cbn [andb]. rewrite N.lor_comm. rewrite (lor_low 6 5) by lia. auto. }
  ok_false (c <=? 2047). cbn [andb].
  destruct (c <? 65536) eqn:C3; [apply N.ltb_lt in C3|apply N.ltb_ge in C3].
  { cbn [length] in Hcap. ok_true (2 <? cap). rewrite andb_true_r. ok_true (c <=? 65535). cbn [andb].
    rewrite N.lor_comm, (lor_low 14 4) by (cbn; lia).
    destruct (c <=? 55295) eqn:C4; auto. apply N.leb_gt in C4. ok_true (55296 <=? c). ok_false (c <=? 57343). auto. }
  cbn [length] in Hcap. ok_false (c <=? 55295). ok_false (c <=? 65535). ok_true (c <=? 1114111). ok_true (3 <? cap). cbn [andb].
  rewrite N.lor_comm, (lor_low 30 3) by (cbn; lia). auto.
Qed.
Lemma append_not_scalar : forall c cap, ~ scalar c -> u8_append cap c = None.
Proof.
  intros c cap H. unfold scalar in H. unfold u8_append. ok_false (c <=? 127). ok_false (c <=? 2047). ok_false (c <=? 55295). cbn [andb].
  cmp_cases; cbn [andb negb]; auto; lia.
Qed.

Lemma write_scalar : forall c size, scalar c -> N.of_nat (length (utf8 c)) < size -> size <= 2^32 ->
  ustrwrite (Z.of_N c) size = Ok (utf8 c ++ [0], length (utf8 c)).
Proof.
  intros c size H1 H2 H3. unfold ustrwrite. assert (Hl := utf8_nonempty c). destruct H1 as [H1 H1'].
  replace (Z.to_N (Z.of_N c mod 2^32)) with c by (rewrite Z.mod_small; [|change (2^32)%Z with 4294967296%Z]; lia).
  rewrite append_utf8; [|split; auto|left; change (2^32) with 4294967296 in *; lia]. unfold wr. ok_true (N.of_nat (length (utf8 c)) <=? size). cbn [obind].
  ok_true (N.of_nat (length (utf8 c)) <? size). auto.
Qed.
Lemma write_rejects : forall z size, (- 2^31 <= z < 2^31)%Z -> (forall c, scalar c -> z <> Z.of_N c) -> ustrwrite z size = Ok ([], 0%nat).
Proof.
  intros z size Hz H. unfold ustrwrite. rewrite append_not_scalar; auto. intros Hs.
  destruct (Z.lt_ge_cases z 0) as [Hn|Hn].
  - destruct Hs as [Hs _]. change (2^31)%Z with 2147483648%Z in *. change (2^32)%Z with 4294967296%Z in *. lia.
  - apply (H _ Hs). rewrite Z2N.id; [|apply Z.mod_pos_bound; lia]. rewrite Z.mod_small; auto. change (2^31)%Z with 2147483648%Z in *. change (2^32)%Z with 4294967296%Z in *. lia.
Qed.
(** A buffer of at least one byte is never overrun. *)
Lemma write_safe : forall z size, 1 <= size -> size <= 2^32 ->
  exists bs n, ustrwrite z size = Ok (bs, n) /\ N.of_nat (length bs) <= size.
Proof.
  intros z size H1 H2. unfold ustrwrite. change (2^32) with 4294967296 in *. set (c := Z.to_N _). clearbody c.
  destruct (u8_append ((size + 4294967296 - 1) mod 4294967296) c) as [bs|] eqn:E; [|exists [], 0%nat; split; [auto|cbn; lia]].
  assert (Hb : N.of_nat (length bs) <= size).
  { unfold u8_append in E. revert E. cmp_cases; cbn [andb negb]; intros E; inversion E; subst; cbn [length]; lia. }
  unfold wr. ok_true (N.of_nat (length bs) <=? size). cbn [obind]. eexists _, _. split; [reflexivity|].
  destruct (N.of_nat (length bs) <? size) eqn:El; auto. apply N.ltb_lt in El. rewrite app_length. cbn. lia.
Qed.
Lemma utf8_inj : forall a b, scalar a -> scalar b -> utf8 a = utf8 b -> a = b.
Proof.
  intros a b Ha Hb E. assert (A := next_utf8 a [] Ha). assert (B := next_utf8 b [] Hb). rewrite E, B in A. inversion A. lia.
Qed.

(** ** Length and indices *)
Lemma ustrlen_scans : forall s zs, scans s zs -> forall fuel len r, (length zs < fuel)%nat ->
  ustrlen_loop fuel (s ++ 0 :: r) len = Ok (len + length zs)%nat.
Proof.
  induction 1 as [|s z n zs Hc Hne E Hn Hs IH]; intros fuel len r Hf; (destruct fuel as [|fuel]; [cbn in Hf; lia|]); cbn [ustrlen_loop].
  - cbn. auto.
  - destruct (rd_first s r Hc Hne) as (b & -> & Hb). cbn [obind]. rewrite Hb, ustrscan_next, E by auto. cbn [obind fst snd].
    destruct Hn as [Hn _]. rewrite skipn_term by lia. rewrite IH; [|cbn in Hf; lia]. f_equal. cbn. lia.
Qed.
Lemma ustrlen_ok : forall s zs r, scans s zs -> ustrlen (s ++ 0 :: r) = Ok (length zs).
Proof. intros. unfold ustrlen. apply (ustrlen_scans s zs); auto. apply scans_len in H. rewrite app_length. lia. Qed.

Lemma ustrnlen_total : forall s zs, scans s zs -> forall fuel off n len r, (length zs < fuel)%nat ->
  exists k, ustrnlen_loop fuel (s ++ 0 :: r) off n len = Ok k /\ (k <= len + length zs)%nat.
Proof.
  induction 1 as [|s z m zs Hc Hne E Hn Hs IH]; intros fuel off n len r Hf; (destruct fuel as [|fuel]; [cbn in Hf; lia|]); cbn [ustrnlen_loop].
  - cbn. exists len. split; auto. lia.
  - destruct (rd_first s r Hc Hne) as (b & -> & Hb). cbn [obind]. rewrite Hb, ustrscan_next, E by auto. cbn [orb obind fst snd].
    destruct (n <=? off)%nat; [exists len; split; auto; lia|].
    destruct Hn as [Hn _]. rewrite skipn_term by lia. destruct (IH fuel (off + m)%nat n (S len) r) as (k & Ek & Hk); [cbn in Hf; lia|].
    exists k. split; auto. cbn. lia.
Qed.
Lemma ustrnlen_encode : forall a b, Forall char_ok a -> Forall char_ok b -> forall fuel off len r, (length a + length b < fuel)%nat ->
  ustrnlen_loop fuel (encode (a ++ b) ++ 0 :: r) off (off + length (encode a)) len = Ok (len + length a)%nat.
Proof.
  induction a as [|c a IH]; intros b Ha Hb fuel off len r Hf; (destruct fuel as [|fuel]; [lia|]); cbn [ustrnlen_loop].
  - cbn [app]. change (encode []) with (@nil N). cbn [length]. replace (off + 0 <=? off)%nat with true by (symmetry; apply Nat.leb_le; lia).
    destruct (encode b ++ 0 :: r) eqn:E; [destruct (encode b); discriminate|]. rewrite rd_0. cbn [obind]. rewrite orb_true_r. f_equal. lia.
  - inversion Ha; subst. cbn [app]. rewrite !encode_cons, <- !app_assoc. assert (Hl := utf8_nonempty c).
    assert (Hne : encode (c :: a ++ b) <> []) by (rewrite encode_cons; intros F; apply app_eq_nil in F; destruct F as [F _]; rewrite F in Hl; cbn in Hl; lia).
    assert (Hcs : cstring (encode (c :: a ++ b))) by (apply encode_cstring; constructor; auto; apply Forall_app; auto).
    destruct (rd_first _ r Hcs Hne) as (bb & E & Eb). pose proof (ustrscan_next _ r Hcs Hne) as Es. rewrite encode_cons, <- app_assoc in E, Es.
    rewrite E. cbn [obind]. rewrite Eb, Es. rewrite next_utf8 by (apply H1). cbn [orb obind fst snd].
    rewrite app_length. replace (off + (length (utf8 c) + length (encode a)) <=? off)%nat with false by (symmetry; apply Nat.leb_gt; lia).
    rewrite skipn_len_app. replace (off + (length (utf8 c) + length (encode a)))%nat with ((off + length (utf8 c)) + length (encode a))%nat by lia.
    rewrite IH; auto; [f_equal; cbn; lia|cbn in Hf; lia].
Qed.

Lemma ustridx_total : forall s zs, scans s zs -> forall i off r,
  exists o, ustridx_loop i (s ++ 0 :: r) off = Ok o /\ match o with Some k => (i <= length zs /\ off <= k <= off + length s)%nat | None => (length zs < i)%nat end.
Proof.
  induction 1 as [|s z n zs Hc Hne E Hn Hs IH]; intros [|i] off r; cbn [ustridx_loop].
  - exists (Some off). split; auto. cbn. lia.
  - cbn. exists None. split; auto. lia.
  - exists (Some off). split; auto. lia.
  - rewrite ustrscan_next, E by auto. cbn [obind fst snd]. pose proof (scanned_nonzero _ _ _ Hn) as Hz.
    replace (z =? 0)%Z with false by (symmetry; apply Z.eqb_neq; auto). destruct Hn as [Hn _]. rewrite skipn_term by lia.
    destruct (IH i (off + n)%nat r) as (o & Eo & Ho). exists o. split; auto. destruct o; rewrite ?skipn_length in Ho; cbn [length]; lia.
Qed.
Lemma ustridx_encode : forall i cs off r, Forall char_ok cs ->
  ustridx_loop i (encode cs ++ 0 :: r) off = Ok (if (i <=? length cs)%nat then Some (off + length (encode (firstn i cs)))%nat else None).
Proof.
  induction i as [|i IH]; intros cs off r H; cbn [ustridx_loop].
  - cbn. f_equal. f_equal. lia.
  - destruct cs as [|c cs]; [cbn; auto|]. inversion H; subst.
    assert (Hcs : cstring (encode (c :: cs))) by (apply encode_cstring; auto). assert (Hl := utf8_nonempty c).
    rewrite ustrscan_next; auto.
    2:{ rewrite encode_cons. intros F. apply app_eq_nil in F. destruct F as [F _]. rewrite F in Hl. cbn in Hl. lia. }
    cbn [firstn]. rewrite !encode_cons, <- !app_assoc, next_utf8 by apply H2. cbn [obind fst snd].
    replace (Z.of_N c =? 0)%Z with false by (symmetry; apply Z.eqb_neq; destruct H2; lia). rewrite skipn_len_app, IH by auto.
    cbn [length Nat.leb]. destruct (i <=? length cs)%nat; auto. rewrite app_length. do 2 f_equal. lia.
Qed.

(** ** dk_ustrchr *)
Lemma ustrchr_total : forall s zs, scans s zs -> forall fuel ch i r, (length zs < fuel)%nat -> exists o, ustrchr_loop fuel (s ++ 0 :: r) ch i = Ok o.
Proof.
  induction 1 as [|s z n zs Hc Hne E Hn Hs IH]; intros fuel ch i r Hf; (destruct fuel as [|fuel]; [cbn in Hf; lia|]); cbn [ustrchr_loop].
  - cbn. eauto.
  - destruct (rd_first s r Hc Hne) as (b & -> & Hb). cbn [obind]. rewrite Hb, E. cbn [obind fst snd]. destruct (z =? ch)%Z; eauto.
    destruct Hn as [Hn _]. rewrite skipn_term by lia. apply IH. cbn in Hf. lia.
Qed.
Lemma ustrchr_encode : forall pre c post r fuel i, Forall char_ok pre -> char_ok c -> ~ In c pre -> (length pre < fuel)%nat ->
  ustrchr_loop fuel (encode (pre ++ c :: post) ++ 0 :: r) (Z.of_N c) i = Ok (Some (i + length (encode (pre ++ [c])))%nat).
Proof.
  induction pre as [|p pre IH]; intros c post r fuel i Hp Hc Hn Hf; (destruct fuel as [|fuel]; [lia|]); cbn [ustrchr_loop app].
  - rewrite !encode_cons, <- !app_assoc. assert (Hl := utf8_nonempty c). assert (Hz := utf8_nonzero c (proj2 Hc)).
    destruct (utf8 c) as [|b u] eqn:Eu; [cbn in Hl; lia|]. rewrite <- Eu in *. replace (rd (utf8 c ++ encode post ++ 0 :: r) 0) with (Ok b) by (rewrite Eu; auto).
    cbn [obind]. replace (b =? 0) with false by (symmetry; apply N.eqb_neq; intros ->; apply Hz; rewrite Eu; left; auto).
    rewrite next_utf8 by apply Hc. cbn [obind fst snd]. rewrite Z.eqb_refl. rewrite app_length. cbn. do 2 f_equal. lia.
  - inversion Hp; subst. rewrite !encode_cons, <- !app_assoc. assert (Hl := utf8_nonempty p). assert (Hz := utf8_nonzero p (proj2 H1)).
    destruct (utf8 p) as [|b u] eqn:Eu; [cbn in Hl; lia|]. rewrite <- Eu in *. replace (rd (utf8 p ++ encode (pre ++ c :: post) ++ 0 :: r) 0) with (Ok b) by (rewrite Eu; auto).
    cbn [obind]. replace (b =? 0) with false by (symmetry; apply N.eqb_neq; intros ->; apply Hz; rewrite Eu; left; auto).
    rewrite next_utf8 by apply H1. cbn [obind fst snd]. replace (Z.of_N p =? Z.of_N c)%Z with false.
    2:{ symmetry. apply Z.eqb_neq. intros F. apply Hn. left. lia. }
    rewrite skipn_len_app, IH; auto; [|intros F; apply Hn; right; auto|cbn in Hf; lia]. rewrite app_length. do 2 f_equal. lia.
Qed.
Lemma ustrchr_absent : forall cs c r fuel i, Forall char_ok cs -> ~ In c cs -> (length cs < fuel)%nat ->
  ustrchr_loop fuel (encode cs ++ 0 :: r) (Z.of_N c) i = Ok None.
Proof.
  induction cs as [|p pre IH]; intros c r fuel i Hp Hn Hf; (destruct fuel as [|fuel]; [lia|]); cbn [ustrchr_loop]; [cbn; auto|].
  inversion Hp; subst. rewrite !encode_cons, <- !app_assoc. assert (Hl := utf8_nonempty p). assert (Hz := utf8_nonzero p (proj2 H1)).
  destruct (utf8 p) as [|b u] eqn:Eu; [cbn in Hl; lia|]. rewrite <- Eu in *. replace (rd (utf8 p ++ encode pre ++ 0 :: r) 0) with (Ok b) by (rewrite Eu; auto).
  cbn [obind]. replace (b =? 0) with false by (symmetry; apply N.eqb_neq; intros ->; apply Hz; rewrite Eu; left; auto).
  rewrite next_utf8 by apply H1. cbn [obind fst snd]. replace (Z.of_N p =? Z.of_N c)%Z with false.
  2:{ symmetry. apply Z.eqb_neq. intros F. apply Hn. left. lia. }
  rewrite skipn_len_app, IH; auto; [intros F; apply Hn; right; auto|cbn in Hf; lia].
Qed.

(** ** Scanning backwards *)
Lemma strlen_ok : forall s r, ~ In 0 s -> strlen (s ++ 0 :: r) = Ok (length s).
Proof.
  induction s as [|b s IH]; intros r H; cbn [strlen app]; auto. replace (b =? 0) with false by (symmetry; apply N.eqb_neq; intros ->; apply H; left; auto).
  rewrite IH; [auto|intros F; apply H; right; auto].
Qed.
Lemma prev_loop_total : forall s fuel pi i count shift c, (i < fuel)%nat -> (i <= pi)%nat -> (i <= length s)%nat ->
  exists z j, prev_loop fuel s pi i count shift c = Ok (z, j) /\ (j <= pi)%nat.
Proof.
  intros s. induction fuel; intros pi i count shift c Hf Hp Hl; [lia|]. cbn [prev_loop]. destruct i as [|i]; [eexists _, _; split; [reflexivity|lia]|].
  destruct (rd s i) as [b| | |] eqn:E.
  2-4: exfalso; unfold rd in E; destruct (nth_error s i) eqn:En; try discriminate; apply nth_error_None in En; lia.
  cbn [obind]. repeat match goal with |- context [if ?x then _ else _] => destruct x end; try (eexists _, _; split; [reflexivity|lia]).
  apply IHfuel; lia.
Qed.
Lemma u8_prev_total : forall s i, (1 <= i <= length s)%nat -> exists z j, u8_prev s i = Ok (z, j) /\ (j < i)%nat.
Proof.
  intros s [|i] H; [lia|]. unfold u8_prev. destruct (rd s i) as [b| | |] eqn:E.
  2-4: exfalso; unfold rd in E; destruct (nth_error s i) eqn:En; try discriminate; apply nth_error_None in En; lia.
  cbn [obind]. destruct (b <? 128); [eexists _, _; split; [reflexivity|lia]|]. destruct (is_trail b); [|eexists _, _; split; [reflexivity|lia]].
  destruct (prev_loop_total s (S i) i i 1 6 (N.land b 0x3f)) as (z & j & Ej & Hj); try lia. exists z, j. split; auto. lia.
Qed.
Lemma ustrrchr_total : forall s fuel ch i, (i < fuel)%nat -> (i <= length s)%nat -> exists o, ustrrchr_loop fuel s ch i = Ok o.
Proof.
  intros s. induction fuel; intros ch i Hf Hl; [lia|]. cbn [ustrrchr_loop]. destruct i as [|i]; eauto.
  destruct (u8_prev_total s (S i)) as (z & j & -> & Hj); [lia|]. cbn [obind fst snd]. destruct (z =? ch)%Z; eauto. apply IHfuel; lia.
Qed.
Lemma ustrridx_total : forall s fuel idx j i, (i < fuel)%nat -> (i <= length s)%nat -> exists o, ustrridx_loop fuel s idx j i = Ok o.
Proof.
  intros s. induction fuel; intros idx j i Hf Hl; [lia|]. cbn [ustrridx_loop]. destruct i as [|i]; eauto.
  destruct (u8_prev_total s (S i)) as (z & k & -> & Hj); [lia|]. cbn [obind fst snd]. destruct (idx <=? j)%nat; eauto. apply IHfuel; lia.
Qed.

Lemma land_40 : forall b, b < 256 -> (N.land b 0x40 =? 0) = (b / 64 mod 2 =? 0).
Proof.
  intros b H. assert (E : forallb (fun k => Bool.eqb (N.land (N.of_nat k) 0x40 =? 0) (N.of_nat k / 64 mod 2 =? 0)) (seq 0 256) = true) by (vm_compute; auto).
  rewrite forallb_forall in E. specialize (E (N.to_nat b)). rewrite N2Nat.id in E. apply eqb_prop, E. apply in_seq. lia.
Qed.
Lemma rd_mid : forall pre u rest j b, nth_error u j = Some b -> rd (pre ++ u ++ rest) (j + length pre) = Ok b.
Proof.
  intros. unfold rd. rewrite nth_error_app2 by lia. replace (j + length pre - length pre)%nat with j by lia.
  rewrite nth_error_app1; [rewrite H; auto|]. apply nth_error_Some. congruence.
Qed.
Lemma lor_up : forall t n a, t < 2^n -> N.lor t (N.shiftl a n) = a * 2^n + t.
Proof. intros. rewrite N.lor_comm. apply lor_low. auto. Qed.
Lemma land_3f : forall x, N.land x 0x3f = x mod 64.
Proof. intros; apply (land_mod x 6). Qed.

Ltac rw_rd R j v := let Q := fresh in pose proof (R j v eq_refl) as Q; cbn [Nat.add] in Q; rewrite Q; clear Q.
Lemma prev_utf8 : forall pre c rest, scalar c -> u8_prev (pre ++ utf8 c ++ rest) (length (utf8 c) + length pre) = Ok (Z.of_N c, length pre).
Proof.
  intros pre c rest [H1 H2]. assert (R := rd_mid pre (utf8 c) rest). revert R. unfold utf8.
  destruct (c <? 0x80) eqn:C1; [|apply N.ltb_ge in C1; destruct (c <? 0x800) eqn:C2; [apply N.ltb_lt in C2|apply N.ltb_ge in C2;
    destruct (c <? 0x10000) eqn:C3; [apply N.ltb_lt in C3|apply N.ltb_ge in C3]]]; intros R; cbn [length Nat.add].
  - unfold u8_prev. rw_rd R 0%nat c. cbn [obind]. rewrite C1. auto.
  - unfold u8_prev. rw_rd R 1%nat (128 + c mod 64). cbn [obind]. ok_false (128 + c mod 64 <? 128).
    rewrite is_trail_iff by lia. ok_true (128 <=? 128 + c mod 64). ok_true (128 + c mod 64 <? 192). cbn [andb Nat.add].
    cbn [prev_loop]. rw_rd R 0%nat (192 + c / 64). cbn [obind].
    ok_true ((192 + c / 64 + 256 - 128) mod 256 <? 126). rewrite land_40 by lia. ok_false ((192 + c / 64) / 64 mod 2 =? 0). cbn [negb].
    assert (Hct : count_trail (192 + c / 64) = 1) by (destruct (count_trail_cases (192 + c / 64)) as [[? ?]|[[? ?]|[[? ?]|[[? ?]|[[? ?]|[[? ?]|[? ?]]]]]]]; lia).
    rewrite Hct, mask1. cbn [N.eqb Pos.eqb]. rewrite land_3f, lor_up by lia. change (2^6) with 64.
    replace ((192 + c / 64) mod 32 * 64 + (128 + c mod 64) mod 64) with c by lia. cbn [min_legal].
    ok_false (4 <=? 1). ok_false (1114111 <? c). ok_false (c <? 128). ok_false (55296 <=? c). cbn [orb andb]. auto.
  - unfold u8_prev. rw_rd R 2%nat (128 + c mod 64). cbn [obind]. ok_false (128 + c mod 64 <? 128).
    rewrite is_trail_iff by lia. ok_true (128 <=? 128 + c mod 64). ok_true (128 + c mod 64 <? 192). cbn [andb Nat.add].
    cbn [prev_loop]. rw_rd R 1%nat (128 + c / 64 mod 64). cbn [obind].
    ok_true ((128 + c / 64 mod 64 + 256 - 128) mod 256 <? 126). rewrite land_40 by lia. ok_true ((128 + c / 64 mod 64) / 64 mod 2 =? 0). cbn [negb].
    ok_true (1 <? 5). rw_rd R 0%nat (224 + c / 4096). cbn [obind].
    ok_true ((224 + c / 4096 + 256 - 128) mod 256 <? 126). rewrite land_40 by lia. ok_false ((224 + c / 4096) / 64 mod 2 =? 0). cbn [negb].
    assert (Hct : count_trail (224 + c / 4096) = 2) by (destruct (count_trail_cases (224 + c / 4096)) as [[? ?]|[[? ?]|[[? ?]|[[? ?]|[[? ?]|[[? ?]|[? ?]]]]]]]; lia).
    rewrite Hct. ok_true (1 + 1 =? 2). change (1 + 1) with 2. change (6 + 6) with 12. rewrite mask2. rewrite !land_3f, (lor_up _ 6) by (cbn; lia). rewrite lor_up by (cbn; lia).
    change (2^6) with 64. change (2^12) with 4096.
    replace ((224 + c / 4096) mod 16 * 4096 + ((128 + c / 64 mod 64) mod 64 * 64 + (128 + c mod 64) mod 64)) with c by lia. cbn [min_legal].
    ok_false (4 <=? 2). ok_false (1114111 <? c). ok_false (c <? 2048). cbn [orb].
    replace ((55296 <=? c) && (c <=? 57343)) with false; auto. symmetry. apply andb_false_iff. rewrite N.leb_gt, N.leb_gt. lia.
  - unfold u8_prev. rw_rd R 3%nat (128 + c mod 64). cbn [obind]. ok_false (128 + c mod 64 <? 128).
    rewrite is_trail_iff by lia. ok_true (128 <=? 128 + c mod 64). ok_true (128 + c mod 64 <? 192). cbn [andb Nat.add].
    cbn [prev_loop]. rw_rd R 2%nat (128 + c / 64 mod 64). cbn [obind].
    ok_true ((128 + c / 64 mod 64 + 256 - 128) mod 256 <? 126). rewrite land_40 by lia. ok_true ((128 + c / 64 mod 64) / 64 mod 2 =? 0). cbn [negb].
    ok_true (1 <? 5). rw_rd R 1%nat (128 + c / 4096 mod 64). cbn [obind].
    ok_true ((128 + c / 4096 mod 64 + 256 - 128) mod 256 <? 126). rewrite land_40 by lia. ok_true ((128 + c / 4096 mod 64) / 64 mod 2 =? 0). cbn [negb].
    ok_true (1 + 1 <? 5). rw_rd R 0%nat (240 + c / 262144). cbn [obind].
    ok_true ((240 + c / 262144 + 256 - 128) mod 256 <? 126). rewrite land_40 by lia. ok_false ((240 + c / 262144) / 64 mod 2 =? 0). cbn [negb].
    assert (Hct : count_trail (240 + c / 262144) = 3) by (destruct (count_trail_cases (240 + c / 262144)) as [[? ?]|[[? ?]|[[? ?]|[[? ?]|[[? ?]|[[? ?]|[? ?]]]]]]]; lia).
    rewrite Hct. ok_true (1 + 1 + 1 =? 3). change (1 + 1 + 1) with 3. change (6 + 6) with 12. change (12 + 6) with 18. rewrite mask3.
    rewrite !land_3f, (lor_up _ 6) by (cbn; lia). rewrite (lor_up _ 12) by (cbn; lia). rewrite lor_up by (cbn; lia).
    change (2^6) with 64. change (2^12) with 4096. change (2^18) with 262144.
    replace ((240 + c / 262144) mod 8 * 262144 + ((128 + c / 4096 mod 64) mod 64 * 4096 + ((128 + c / 64 mod 64) mod 64 * 64 + (128 + c mod 64) mod 64))) with c by lia. cbn [min_legal].
    ok_false (4 <=? 3). ok_false (1114111 <? c). ok_false (c <? 65536). cbn [orb].
    replace ((55296 <=? c) && (c <=? 57343)) with false; auto. symmetry. apply andb_false_iff. rewrite N.leb_gt, N.leb_gt. lia.
Qed.

Lemma encode_snoc : forall cs c, encode (cs ++ [c]) = encode cs ++ utf8 c.
Proof. intros. rewrite encode_app, encode_cons. cbn. rewrite app_nil_r. auto. Qed.
Lemma prev_encode : forall cs c rest, char_ok c ->
  u8_prev (encode (cs ++ [c]) ++ rest) (length (encode (cs ++ [c]))) = Ok (Z.of_N c, length (encode cs)).
Proof.
  intros cs c rest [H _]. rewrite encode_snoc, app_length, Nat.add_comm, <- app_assoc. apply prev_utf8. auto.
Qed.
Lemma encode_snoc_pos : forall cs c, (length (encode cs) < length (encode (cs ++ [c])))%nat.
Proof. intros. rewrite encode_snoc, app_length. pose proof (utf8_nonempty c). lia. Qed.

Lemma ustrrchr_found : forall post pre c r fuel, Forall char_ok (pre ++ c :: post) -> ~ In c post -> (length (encode (pre ++ c :: post)) < fuel)%nat ->
  ustrrchr_loop fuel (encode (pre ++ c :: post) ++ r) (Z.of_N c) (length (encode (pre ++ c :: post))) = Ok (Some (length (encode pre))).
Proof.
  induction post as [|d post IH] using rev_ind; intros pre c r fuel Hok Hn Hf; (destruct fuel as [|fuel]; [lia|]); cbn [ustrrchr_loop].
  - pose proof (encode_snoc_pos pre c) as Hp. destruct (length (encode (pre ++ [c]))) eqn:E; [lia|]. rewrite <- E. rewrite prev_encode.
    + cbn [obind fst snd]. rewrite Z.eqb_refl. auto.
    + apply Forall_app in Hok. destruct Hok as [_ Hok]. inversion Hok; auto.
  - rewrite app_comm_cons, app_assoc in *. pose proof (encode_snoc_pos (pre ++ c :: post) d) as Hp. 
    destruct (length (encode ((pre ++ c :: post) ++ [d]))) eqn:E; [lia|]. rewrite <- E.
    apply Forall_app in Hok. destruct Hok as [Hok1 Hok2]. inversion Hok2; subst.
    rewrite prev_encode by auto. cbn [obind fst snd]. replace (Z.of_N d =? Z.of_N c)%Z with false.
    2:{ symmetry. apply Z.eqb_neq. intros F. apply Hn. apply in_app_iff. right. left. lia. }
    rewrite encode_snoc, <- app_assoc. apply IH; auto; [intros F; apply Hn; apply in_app_iff; auto|lia].
Qed.
Lemma ustrrchr_absent : forall cs c r fuel, Forall char_ok cs -> ~ In c cs -> (length (encode cs) < fuel)%nat ->
  ustrrchr_loop fuel (encode cs ++ r) (Z.of_N c) (length (encode cs)) = Ok None.
Proof.
  induction cs as [|d cs IH] using rev_ind; intros c r fuel Hok Hn Hf; (destruct fuel as [|fuel]; [lia|]); cbn [ustrrchr_loop]; [cbn; auto|].
  pose proof (encode_snoc_pos cs d) as Hp. destruct (length (encode (cs ++ [d]))) eqn:E; [lia|]. rewrite <- E.
  apply Forall_app in Hok. destruct Hok as [Hok1 Hok2]. inversion Hok2; subst.
  rewrite prev_encode by auto. cbn [obind fst snd]. replace (Z.of_N d =? Z.of_N c)%Z with false.
  2:{ symmetry. apply Z.eqb_neq. intros F. apply Hn. apply in_app_iff. right. left. lia. }
  rewrite encode_snoc, <- app_assoc. apply IH; auto; [intros F; apply Hn; apply in_app_iff; auto|lia].
Qed.
Lemma ustrridx_encode : forall cs i j r fuel, Forall char_ok cs -> (j <= i)%nat -> (length (encode cs) < fuel)%nat ->
  ustrridx_loop fuel (encode cs ++ r) i j (length (encode cs)) =
    Ok (if (i - j <? length cs)%nat then Some (length (encode (firstn (length cs - 1 - (i - j)) cs))) else None).
Proof.
  induction cs as [|d cs IH] using rev_ind; intros i j r fuel Hok Hj Hf; (destruct fuel as [|fuel]; [lia|]); cbn [ustrridx_loop]; [cbn; auto|].
  pose proof (encode_snoc_pos cs d) as Hp. destruct (length (encode (cs ++ [d]))) eqn:E; [lia|]. rewrite <- E.
  apply Forall_app in Hok. destruct Hok as [Hok1 Hok2]. inversion Hok2; subst.
  rewrite prev_encode by auto. cbn [obind fst snd]. rewrite app_length. cbn [length].
  destruct (i <=? j)%nat eqn:El.
  - apply Nat.leb_le in El. replace (i - j)%nat with 0%nat by lia. replace (0 <? length cs + 1)%nat with true by (symmetry; apply Nat.ltb_lt; lia).
    replace (length cs + 1 - 1 - 0)%nat with (length cs) by lia. rewrite firstn_app, Nat.sub_diag, firstn_all, app_nil_r. auto.
  - apply Nat.leb_gt in El. rewrite encode_snoc, <- app_assoc. rewrite IH by (auto; lia).
    replace (i - j <? length cs + 1)%nat with (i - S j <? length cs)%nat.
    2:{ destruct (i - S j <? length cs)%nat eqn:E1; symmetry; [apply Nat.ltb_lt in E1; apply Nat.ltb_lt|apply Nat.ltb_ge in E1; apply Nat.ltb_ge]; lia. }
    destruct (i - S j <? length cs)%nat eqn:E1; auto. apply Nat.ltb_lt in E1. do 3 f_equal. f_equal.
    replace (length cs + 1 - 1 - (i - j))%nat with (length cs - 1 - (i - S j))%nat by lia.
    rewrite firstn_app. replace (length cs - 1 - (i - S j) - length cs)%nat with 0%nat by lia. rewrite app_nil_r. auto.
Qed.

(** ** dk_ustrcmp *)
Local Open Scope Z_scope.
(** The comparison of the decoded characters; the end of a string is 0. *)
Fixpoint zcmp (a b : list Z) : Z :=
  match a, b with
  | [], [] => 0
  | x :: _, [] => 0 - x
  | [], y :: _ => y - 0
  | x :: a', y :: b' => if x =? y then zcmp a' b' else y - x
  end.
Lemma ustrcmp_scans : forall a zs, scans a zs -> forall b ws fuel r r', scans b ws -> (length zs < fuel)%nat ->
  ustrcmp_loop fuel (a ++ 0%N :: r) (b ++ 0%N :: r') = Ok (zcmp zs ws).
Proof.
  induction 1 as [|a z n zs Hc Hne E Hn Hs IH]; intros b ws fuel r r' Hb Hf; (destruct fuel as [|fuel]; [cbn in Hf; lia|]); cbn [ustrcmp_loop].
  - rewrite (next_end [] r eq_refl). cbn [obind]. inversion Hb as [|b' w m ws' Hc' Hne' E' Hn' Hs']; subst.
    + rewrite (next_end [] r' eq_refl). cbn. auto.
    + rewrite E'. cbn [obind fst snd]. apply scanned_nonzero in Hn'. replace (0 =? w) with false by (symmetry; apply Z.eqb_neq; auto). cbn. auto.
  - rewrite E. cbn [obind]. pose proof (scanned_nonzero _ _ _ Hn) as Hz. inversion Hb as [|b' w m ws' Hc' Hne' E' Hn' Hs']; subst.
    + rewrite (next_end [] r' eq_refl). cbn [obind fst snd]. replace (z =? 0) with false by (symmetry; apply Z.eqb_neq; auto). cbn. auto.
    + rewrite E'. cbn [obind fst snd zcmp]. replace (z =? 0) with false by (symmetry; apply Z.eqb_neq; auto). cbn [negb]. rewrite andb_true_r.
      destruct (z =? w); auto. destruct Hn as [Hn _], Hn' as [Hn' _]. rewrite !skipn_term by lia. apply IH; auto. cbn in Hf. lia.
Qed.
Lemma ustrcmp_ok : forall a zs b ws r r', scans a zs -> scans b ws -> ustrcmp (a ++ 0%N :: r) (b ++ 0%N :: r') = Ok (zcmp zs ws).
Proof. intros. unfold ustrcmp. apply ustrcmp_scans; auto. apply scans_len in H. rewrite app_length. lia. Qed.

Lemma zcmp_refl : forall a, zcmp a a = 0.
Proof. induction a; cbn; auto. rewrite Z.eqb_refl. auto. Qed.
Lemma zcmp_antisym : forall a b, zcmp b a = - zcmp a b.
Proof.
  induction a as [|x a IH]; intros [|y b]; cbn [zcmp]; try lia. rewrite Z.eqb_sym. destruct (x =? y); [auto|lia].
Qed.
Lemma zcmp_trans : forall a b c, ~ In 0 a -> ~ In 0 b -> ~ In 0 c -> 0 <= zcmp a b -> 0 <= zcmp b c -> 0 <= zcmp a c.
Proof.
  assert (N0 : forall x l, ~ In 0 (x :: l) -> x <> 0 /\ ~ In 0 l) by (intros x l H; split; intros F; apply H; [left|right]; auto).
  induction a as [|x a IH]; intros [|y b] [|z c] Ha Hb Hc; repeat match goal with H : ~ In 0 (_ :: _) |- _ => apply N0 in H; destruct H end;
    cbn [zcmp]; try lia;
    repeat match goal with |- context [?p =? ?q] => let E := fresh in destruct (p =? q) eqn:E; [apply Z.eqb_eq in E|apply Z.eqb_neq in E] end; try lia.
  subst. apply IH; auto.
Qed.
Lemma zcmp_zero : forall a b, ~ In 0 a -> ~ In 0 b -> zcmp a b = 0 -> a = b.
Proof.
  induction a as [|x a IH]; intros [|y b] Ha Hb; cbn [zcmp]; auto; intros H.
  - exfalso. apply Hb. left. lia.
  - exfalso. apply Ha. left. lia.
  - destruct (x =? y) eqn:E; [|apply Z.eqb_neq in E; lia]. apply Z.eqb_eq in E. subst. f_equal. apply IH; auto; intros F; [apply Ha|apply Hb]; right; auto.
Qed.
Lemma zcmp_pos : forall a b, Forall char_ok a -> Forall char_ok b -> (0 < zcmp (map Z.of_N a) (map Z.of_N b) <-> chars_before a b).
Proof.
  induction a as [|x a IH]; intros [|y b] Ha Hb; cbn [map zcmp].
  - split; [lia|]. intros H. inversion H.
  - split; [constructor|]. inversion Hb as [|? ? [_ ?] ?]; subst. lia.
  - split; [|intros H; inversion H]. lia.
  - inversion Ha; inversion Hb; subst. destruct (Z.of_N x =? Z.of_N y) eqn:E.
    + apply Z.eqb_eq in E. assert (x = y) by lia. subst. rewrite IH by auto. split; intros H; [apply cb_later; auto|]. inversion H; subst; [lia|auto].
    + apply Z.eqb_neq in E. split; intros H; [apply cb_here; lia|]. inversion H; subst; lia.
Qed.

(** ** dk_ustrstr, dk_ustrstr_range *)
Fixpoint prefixb (p l : list Z) : bool :=
  match p, l with
  | [], _ => true
  | x :: p', y :: l' => (y =? x) && prefixb p' l'
  | _ :: _, [] => false
  end.
Lemma match_loop_scans : forall v vs, scans v vs -> forall u us c1 c2 fuel len r r', scans u us -> (length vs < fuel)%nat ->
  match_loop fuel (u ++ 0%N :: r) (v ++ 0%N :: r') c1 c2 len =
    Ok (if (c1 =? c2) && prefixb vs us then Some (len + length vs)%nat else None).
Proof.
  induction 1 as [|v w m vs Hc Hne E Hm Hs IH]; intros u us c1 c2 fuel len r r' Hu Hf; (destruct fuel as [|fuel]; [cbn in Hf; lia|]); cbn [match_loop].
  - destruct (c1 =? c2); auto. cbn. rewrite Nat.add_0_r. auto.
  - destruct (c1 =? c2) eqn:Ec; auto. cbn [andb]. destruct (rd_first v r' Hc Hne) as (b & -> & Hb). cbn [obind]. rewrite Hb.
    pose proof (scanned_nonzero _ _ _ Hm) as Hz. destruct Hm as [Hm _]. inversion Hu as [|u' z n us' Hc' Hne' E' Hn' Hs']; subst.
    + rewrite (next_end [] r eq_refl), E. cbn [obind fst snd prefixb]. destruct fuel as [|fuel]; [cbn in Hf; lia|]. cbn [match_loop].
      replace (0 =? w) with false by (symmetry; apply Z.eqb_neq; auto). auto.
    + rewrite E', E. cbn [obind fst snd prefixb]. destruct Hn' as [Hn' _]. rewrite !skipn_term by lia. rewrite (IH _ us'); auto; [|cbn in Hf; lia].
      destruct ((z =? w) && prefixb vs us'); auto. cbn [length]. do 2 f_equal. lia.
Qed.

Lemma ustrstr_scans : forall v w m vs, (forall r', u8_next (v ++ 0%N :: r') = Ok (w, m)) -> (m <= length v)%nat -> scans (skipn m v) vs -> (length vs <= length v)%nat ->
  forall s zs, scans s zs -> forall fuel off loc r r', (length zs < fuel)%nat ->
  exists o, ustrstr_loop fuel (s ++ 0%N :: r) (v ++ 0%N :: r') off loc = Ok o /\
    match o with
    | Some (off', loc', len) => exists p, (p < length zs)%nat /\ loc' = (loc + p)%nat /\ len = S (length vs) /\
        prefixb (w :: vs) (skipn p zs) = true /\ (forall q, (q < p)%nat -> prefixb (w :: vs) (skipn q zs) = false)
    | None => forall q, prefixb (w :: vs) (skipn q zs) = false
    end.
Proof.
  intros v w m vs Ev Hmv Hv Hlv. induction 1 as [|s z n zs Hc Hne E Hn Hs IH]; intros fuel off loc r r' Hf; (destruct fuel as [|fuel]; [cbn in Hf; lia|]); cbn [ustrstr_loop].
  - cbn. exists None. split; auto. intros [|q]; auto.
  - destruct (rd_first s r Hc Hne) as (b & -> & Hb). cbn [obind]. rewrite Hb, E, Ev. cbn [obind fst snd]. destruct Hn as [Hn _].
    rewrite !skipn_term by lia. rewrite (match_loop_scans _ _ Hv _ zs); auto; [|rewrite app_length; lia]. cbn [obind].
    destruct ((z =? w) && prefixb vs zs) eqn:Em.
    + eexists. split; [reflexivity|]. cbn beta iota. exists 0%nat. cbn [skipn prefixb length]. split; [lia|]. split; [lia|]. split; [lia|]. split; [auto|]. intros q Hq. lia.
    + destruct (IH fuel (off + n)%nat (S loc) r r') as (o & -> & Ho); [cbn in Hf; lia|]. exists o. split; auto. destruct o as [[[off' loc'] len]|].
      * destruct Ho as (p & H1 & H2 & H3 & H4 & H5). exists (S p). cbn [skipn length]. split; [lia|]. split; [lia|]. split; [auto|]. split; [auto|].
        intros [|q] Hq; [cbn [skipn prefixb]; auto|]. cbn [skipn]. apply H5. lia.
      * intros [|q]; [cbn [skipn prefixb]; auto|]. cbn [skipn]. apply Ho.
Qed.

Lemma ustrstr_total : forall a b r r', cstring a -> cstring b -> exists o, ustrstr_both (a ++ 0%N :: r) (b ++ 0%N :: r') = Ok o.
Proof.
  intros a b r r' Ha Hb. unfold ustrstr_both. destruct a as [|x a']; [cbn; eauto|]. set (a := x :: a') in *.
  assert (Hna : a <> []) by (subst a; congruence). destruct (rd_first a r Ha Hna) as (b1 & -> & Hb1). cbn [obind]. rewrite Hb1.
  destruct b as [|y b']; [cbn; eauto|]. set (b := y :: b') in *.
  assert (Hnb : b <> []) by (subst b; congruence). destruct (rd_first b r' Hb Hnb) as (b2 & -> & Hb2). cbn [obind]. rewrite Hb2.
  destruct (scans_total _ a (Nat.le_refl _) Ha) as (zs & Hz & Hzl).
  destruct (next_char b Hb Hnb) as (w & m & Ew & Hw). destruct Hw as [Hw _].
  destruct (scans_total _ (skipn m b) (Nat.le_refl _) (cstring_skipn _ _ Hb)) as (vs & Hv & Hvl). rewrite skipn_length in Hvl.
  destruct (ustrstr_scans b w m vs Ew ltac:(lia) Hv ltac:(lia) a zs Hz (S (length (a ++ 0%N :: r))) 0%nat 0%nat r r') as (o & E & _); eauto.
  rewrite app_length. lia.
Qed.

Lemma prefixb_map : forall p l, prefixb (map Z.of_N p) (map Z.of_N l) = true <-> exists post, l = p ++ post.
Proof.
  induction p as [|x p IH]; intros [|y l]; cbn [map prefixb].
  - split; [intros _; exists []; auto|auto].
  - split; [intros _; exists (y :: l); auto|auto].
  - split; [discriminate|]. intros (post & H). discriminate.
  - rewrite andb_true_iff, IH. split.
    + intros (H & post & ->). apply Z.eqb_eq in H. exists post. cbn. f_equal. lia.
    + intros (post & H). inversion H; subst. split; [apply Z.eqb_eq; auto|eauto].
Qed.
Lemma prefixb_occurs : forall p l q, p <> [] -> (prefixb (map Z.of_N p) (skipn q (map Z.of_N l)) = true <-> occurs_at p l q).
Proof.
  intros p l q Hp. rewrite skipn_map, prefixb_map. unfold occurs_at. split.
  - intros (post & H). exists (firstn q l), post. rewrite <- H, firstn_skipn. split; auto. rewrite firstn_length.
    destruct (Nat.le_gt_cases q (length l)); [lia|]. exfalso. rewrite skipn_all2 in H by lia. symmetry in H. apply app_eq_nil in H. tauto.
  - intros (pre & post & -> & <-). exists post. apply skipn_len_app.
Qed.

(** The byte offset of the match. *)
Lemma ustrstr_offset : forall v s0 fuel off loc r off' loc' len, Forall char_ok s0 ->
  ustrstr_loop fuel (encode s0 ++ 0%N :: r) v off loc = Ok (Some (off', loc', len)) -> (loc <= loc')%nat /\ off' = (off + length (encode (firstn (loc' - loc) s0)))%nat.
Proof.
  intros v. induction s0 as [|c cs IH]; intros fuel off loc r off' loc' len Hok H; (destruct fuel as [|fuel]; [discriminate|]); cbn [ustrstr_loop] in H.
  - cbn in H. discriminate.
  - inversion Hok; subst. rewrite encode_cons, <- app_assoc in H. destruct (rd (utf8 c ++ encode cs ++ 0%N :: r) 0) as [b| | |]; try discriminate. cbn [obind] in H.
    destruct (b =? 0)%N; [discriminate|]. rewrite next_utf8 in H by apply H2. cbn [obind fst snd] in H. apply obind_ok in H. destruct H as (r2 & _ & H).
    apply obind_ok in H. destruct H as (m & _ & H). destruct m.
    + inversion H; subst. rewrite Nat.sub_diag. cbn. lia.
    + rewrite skipn_len_app in H. apply IH in H; auto. destruct H as [H5 ->]. split; [lia|]. replace (loc' - loc)%nat with (S (loc' - S loc)) by lia.
      cbn [firstn]. rewrite encode_cons, app_length. lia.
Qed.

Theorem ustrstr_correct : forall cs pat r r', Forall char_ok cs -> Forall char_ok pat -> pat <> [] ->
  exists o, ustrstr_both (encode cs ++ 0%N :: r) (encode pat ++ 0%N :: r') = Ok o /\
    match o with
    | Some (off, loc, len) => occurs_at pat cs loc /\ len = length pat /\ off = length (encode (firstn loc cs)) /\ (forall q, (q < loc)%nat -> ~ occurs_at pat cs q)
    | None => forall q, ~ occurs_at pat cs q
    end.
Proof.
  intros cs pat r r' Hc Hp Hn. pose proof (encode_cstring _ Hc) as Ha. pose proof (encode_cstring _ Hp) as Hb.
  assert (Hnn : forall l, Forall char_ok l -> l <> [] -> encode l <> []).
  { intros [|x l] _ Hl; [congruence|]. rewrite encode_cons. intros F. apply app_eq_nil in F. destruct F as [F _]. pose proof (utf8_nonempty x) as Hu. rewrite F in Hu. cbn in Hu. lia. }
  unfold ustrstr_both. destruct cs as [|x cs'].
  { cbn. exists None. split; auto. intros q (pre & post & H & _). symmetry in H. apply app_eq_nil in H. destruct H as [_ H]. apply app_eq_nil in H. tauto. }
  set (cs := x :: cs') in *. assert (Hcn : cs <> []) by (subst cs; congruence).
  destruct (rd_first _ r Ha (Hnn _ Hc Hcn)) as (b1 & -> & Hb1). cbn [obind]. rewrite Hb1.
  destruct (rd_first _ r' Hb (Hnn _ Hp Hn)) as (b2 & -> & Hb2). cbn [obind]. rewrite Hb2.
  destruct pat as [|p pat]; [congruence|]. inversion Hp; subst.
  pose proof (scans_encode cs Hc) as Sc. pose proof (scans_encode pat H2) as Sp.
  pose proof (utf8_nonempty p) as Hu. pose proof (scans_len _ _ Sp) as Lp.
  assert (Q1 : forall r', u8_next (encode (p :: pat) ++ 0%N :: r') = Ok (Z.of_N p, length (utf8 p))).
  { intros. rewrite encode_cons, <- app_assoc. apply next_utf8. apply H1. }
  assert (Q2 : (length (utf8 p) <= length (encode (p :: pat)))%nat) by (rewrite encode_cons, app_length; lia).
  assert (Q3 : scans (skipn (length (utf8 p)) (encode (p :: pat))) (map Z.of_N pat)) by (rewrite encode_cons, skipn_len_app; auto).
  assert (Q4 : (length (map Z.of_N pat) <= length (encode (p :: pat)))%nat) by (rewrite encode_cons, app_length; lia).
  assert (Q5 : (length (map Z.of_N cs) < S (length (encode cs ++ 0%N :: r)))%nat) by (apply scans_len in Sc; rewrite app_length; lia).
  destruct (ustrstr_scans _ _ _ _ Q1 Q2 Q3 Q4 _ _ Sc _ 0%nat 0%nat r r' Q5) as (o & E & Ho).
  exists o. split; auto. destruct o as [[[off loc] len]|].
    + pose proof (ustrstr_offset _ _ _ _ _ _ _ _ _ Hc E) as [_ Eo]. rewrite Nat.sub_0_r in Eo.
      destruct Ho as (q & G1 & G2 & G3 & G4 & G5). cbn in G2. subst loc.
      change (Z.of_N p :: map Z.of_N pat) with (map Z.of_N (p :: pat)) in *.
      split; [apply prefixb_occurs; auto|]. split; [rewrite map_length in G3; auto|]. split; [auto|].
      intros q' Hq' F. apply prefixb_occurs in F; auto. rewrite G5 in F; auto. discriminate.
    + intros q F. change (Z.of_N p :: map Z.of_N pat) with (map Z.of_N (p :: pat)) in *. apply prefixb_occurs in F; auto. rewrite Ho in F. discriminate.
Qed.

(** ** Statements for Utf8_Props *)
Local Open Scope N_scope.
Lemma write_then_scan : forall c size rest, char_ok c -> 4 < size <= 2^32 ->
  ustrwrite (Z.of_N c) size = Ok (utf8 c ++ [0], length (utf8 c)) /\
  ustrscan (utf8 c ++ rest) = Ok (Z.of_N c, length (utf8 c)).
Proof.
  intros c size rest [H H0] Hs. split; [apply write_scalar; auto; [pose proof (utf8_nonempty c)|]; lia|].
  unfold ustrscan. pose proof (utf8_nonempty c) as Hl. pose proof (utf8_nonzero c H0) as Hz. destruct (utf8 c) as [|b u] eqn:E; [cbn in Hl; lia|].
  rewrite <- E in *. replace (rd (utf8 c ++ rest) 0) with (Ok b) by (rewrite E; auto). cbn [obind].
  replace (b =? 0) with false by (symmetry; apply N.eqb_neq; intros ->; apply Hz; rewrite E; left; auto). apply next_utf8. auto.
Qed.
Lemma scan_step : forall s r, cstring s ->
  exists z n, ustrscan (s ++ 0 :: r) = Ok (z, n) /\ (n <= length s)%nat /\
    (s = [] -> z = 0%Z /\ n = 0%nat) /\
    (s <> [] -> (1 <= n)%nat /\ (z = (-1)%Z \/ exists c, char_ok c /\ z = Z.of_N c /\ firstn n s = utf8 c)).
Proof.
  intros s r H. destruct s as [|b s'].
  - exists 0%Z, 0%nat. cbn. split; auto. split; auto. split; auto. congruence.
  - set (s := b :: s') in *. assert (Hn : s <> []) by (subst s; congruence). destruct (next_char s H Hn) as (z & n & E & Hl & Hz).
    exists z, n. rewrite ustrscan_next by auto. split; auto. split; [lia|]. split; [congruence|]. intros _. split; [lia|]. destruct Hz as [[Hz _]|Hz]; auto.
Qed.
Lemma traversals : forall s, cstring s -> exists zs, decodes s zs /\ forall r,
  ustrlen (s ++ 0 :: r) = Ok (length zs) /\
  (forall i, exists o, ustridx (s ++ 0 :: r) i = Ok o /\
     match o with Some k => (i <= length zs /\ k <= length s)%nat | None => (length zs < i)%nat end) /\
  (forall n, exists k, ustrnlen (s ++ 0 :: r) n = Ok k /\ (k <= length zs)%nat) /\
  (forall ch, exists o, ustrchr (s ++ 0 :: r) ch = Ok o) /\
  (forall ch, exists o, ustrrchr (s ++ 0 :: r) ch = Ok o) /\
  (forall i, exists o, ustrridx (s ++ 0 :: r) i = Ok o) /\
  (forall s2 r2, cstring s2 -> exists c, ustrcmp (s ++ 0 :: r) (s2 ++ 0 :: r2) = Ok c) /\
  (forall s2 r2, cstring s2 -> exists o, ustrstr (s ++ 0 :: r) (s2 ++ 0 :: r2) = Ok o) /\
  (forall s2 r2, cstring s2 -> exists o, ustrstr_range (s ++ 0 :: r) (s2 ++ 0 :: r2) = Ok o).
Proof.
  intros s H. destruct (scans_total _ s (Nat.le_refl _) H) as (zs & Hz & Hl). exists zs. split; [apply scans_decodes; auto|]. intros r.
  assert (Hf : (length zs < S (length (s ++ 0%N :: r)))%nat) by (rewrite app_length; lia).
  split; [apply ustrlen_ok; auto|]. split.
  { intros i. destruct (ustridx_total s zs Hz i 0%nat r) as (o & E & Ho). exists o. split; auto. destruct o; lia. }
  split. { intros n. destruct (ustrnlen_total s zs Hz _ 0%nat n 0%nat r Hf) as (k & E & Hk). exists k. split; auto. }
  split. { intros ch. apply (ustrchr_total s zs); auto. }
  split. { intros ch. unfold ustrrchr. rewrite strlen_ok by apply H. cbn [obind]. apply ustrrchr_total; [lia|rewrite app_length; lia]. }
  split. { intros ch. unfold ustrridx. rewrite strlen_ok by apply H. cbn [obind]. apply ustrridx_total; [lia|rewrite app_length; lia]. }
  split. { intros s2 r2 H2. destruct (scans_total _ s2 (Nat.le_refl _) H2) as (ws & Hw & _). exists (zcmp zs ws). apply ustrcmp_ok; auto. }
  split. { intros s2 r2 H2. destruct (ustrstr_total s s2 r r2 H H2) as (o & E). unfold ustrstr. rewrite E. cbn [obind]. eauto. }
  intros s2 r2 H2. destruct (ustrstr_total s s2 r r2 H H2) as (o & E). unfold ustrstr_range. rewrite E. cbn [obind]. eauto.
Qed.
Lemma length_and_index : forall cs r, Forall char_ok cs ->
  ustrlen (encode cs ++ 0 :: r) = Ok (length cs) /\
  (forall i, ustridx (encode cs ++ 0 :: r) i = Ok (if (i <=? length cs)%nat then Some (length (encode (firstn i cs))) else None)) /\
  (forall i, ustrridx (encode cs ++ 0 :: r) i = Ok (if (i <? length cs)%nat then Some (length (encode (firstn (length cs - 1 - i) cs))) else None)) /\
  (forall k, (k <= length cs)%nat -> ustrnlen (encode cs ++ 0 :: r) (length (encode (firstn k cs))) = Ok k).
Proof.
  intros cs r H. pose proof (scans_encode cs H) as Hs. split.
  { rewrite (ustrlen_ok _ _ r Hs). rewrite map_length. auto. }
  split. { intros i. unfold ustridx. rewrite ustridx_encode by auto. auto. }
  split. { intros i. unfold ustrridx. rewrite strlen_ok by (apply encode_cstring; auto). cbn [obind].
    rewrite ustrridx_encode; auto; [|lia]. rewrite Nat.sub_0_r. auto. }
  intros k Hk. pose proof (scans_len _ _ Hs) as Hl. rewrite map_length in Hl.
  rewrite <- (firstn_skipn k cs) in H. apply Forall_app in H. destruct H as [H1 H2].
  pose proof (ustrnlen_encode (firstn k cs) (skipn k cs) H1 H2 (S (length (encode cs ++ 0 :: r))) 0%nat 0%nat r) as E.
  rewrite firstn_skipn in E. cbn [Nat.add] in E. unfold ustrnlen. rewrite E.
  - rewrite firstn_length. f_equal. lia.
  - rewrite firstn_length, skipn_length, app_length. lia.
Qed.
Lemma last_char : forall cs c r, Forall char_ok cs ->
  (~ In c cs -> ustrrchr (encode cs ++ 0 :: r) (Z.of_N c) = Ok None) /\
  (forall pre post, cs = pre ++ c :: post -> ~ In c post -> ustrrchr (encode cs ++ 0 :: r) (Z.of_N c) = Ok (Some (length (encode pre)))).
Proof.
  intros cs c r H. unfold ustrrchr. rewrite strlen_ok by (apply encode_cstring; auto). cbn [obind]. split.
  - intros Hn. apply ustrrchr_absent; auto.
  - intros pre post -> Hn. apply ustrrchr_found; auto.
Qed.
Lemma first_char : forall cs c r, Forall char_ok cs ->
  (~ In c cs -> ustrchr (encode cs ++ 0 :: r) (Z.of_N c) = Ok None) /\
  (forall pre post, cs = pre ++ c :: post -> ~ In c pre -> ustrchr (encode cs ++ 0 :: r) (Z.of_N c) = Ok (Some (length (encode (pre ++ [c]))))).
Proof.
  intros cs c r H. pose proof (scans_encode cs H) as Hs. pose proof (scans_len _ _ Hs) as Hl. rewrite map_length in Hl. unfold ustrchr. split.
  - intros Hn. apply ustrchr_absent; auto. rewrite app_length. lia.
  - intros pre post -> Hn. apply Forall_app in H. destruct H as [H1 H2]. inversion H2; subst. apply ustrchr_encode; auto. 
    rewrite app_length in *. cbn in Hl. lia.
Qed.
Lemma first_char_refuted : exists cs c k, Forall char_ok cs /\ ustrchr (encode cs ++ [0]) (Z.of_N c) = Ok (Some k) /\
  ~ exists post, skipn k (encode cs) = utf8 c ++ post.
Proof.
  exists [0x61; 0x62], 0x61, 1%nat. split; [repeat constructor; unfold scalar; try lia; cbn; discriminate|]. split; [vm_compute; auto|].
  intros (post & H). vm_compute in H. discriminate.
Qed.

Lemma compare_wellformed : forall a b r r', Forall char_ok a -> Forall char_ok b ->
  exists c, ustrcmp (encode a ++ 0 :: r) (encode b ++ 0 :: r') = Ok c /\
    (0 < c <-> chars_before a b)%Z /\ (c < 0 <-> chars_before b a)%Z /\ (c = 0 <-> a = b)%Z.
Proof.
  intros a b r r' Ha Hb. exists (zcmp (map Z.of_N a) (map Z.of_N b)). split; [apply ustrcmp_ok; apply scans_encode; auto|].
  split; [apply zcmp_pos; auto|]. split.
  - rewrite <- zcmp_pos by auto. rewrite (zcmp_antisym (map Z.of_N a)). lia.
  - split; [|intros ->; apply zcmp_refl]. intros E. apply zcmp_zero in E.
    + revert b Hb E. clear Ha. induction a as [|x a IH]; intros [|y b] Hb E; try discriminate; auto. inversion E. inversion Hb; subst. f_equal; [lia|auto].
    + eapply scans_nz, scans_encode; auto.
    + eapply scans_nz, scans_encode; auto.
Qed.
Lemma compare_laws : forall a b c, cstring a -> cstring b -> cstring c -> forall ra rb rc,
  ustrcmp (a ++ 0 :: ra) (a ++ 0 :: ra) = Ok 0%Z /\
  (exists x, ustrcmp (a ++ 0 :: ra) (b ++ 0 :: rb) = Ok x /\ ustrcmp (b ++ 0 :: rb) (a ++ 0 :: ra) = Ok (- x)%Z) /\
  (exists x y z, ustrcmp (a ++ 0 :: ra) (b ++ 0 :: rb) = Ok x /\ ustrcmp (b ++ 0 :: rb) (c ++ 0 :: rc) = Ok y /\
     ustrcmp (a ++ 0 :: ra) (c ++ 0 :: rc) = Ok z /\ (0 <= x -> 0 <= y -> 0 <= z)%Z).
Proof.
  intros a b c Ha Hb Hc ra rb rc.
  destruct (scans_total _ a (Nat.le_refl _) Ha) as (za & Sa & _). destruct (scans_total _ b (Nat.le_refl _) Hb) as (zb & Sb & _).
  destruct (scans_total _ c (Nat.le_refl _) Hc) as (zc & Sc & _).
  rewrite !(ustrcmp_ok a za a za), !(ustrcmp_ok a za b zb), !(ustrcmp_ok b zb a za), !(ustrcmp_ok b zb c zc), !(ustrcmp_ok a za c zc) by auto.
  split; [rewrite zcmp_refl; auto|]. split.
  - exists (zcmp za zb). split; auto. rewrite (zcmp_antisym za). auto.
  - eexists _, _, _. split; [reflexivity|]. split; [reflexivity|]. split; [reflexivity|]. apply zcmp_trans; eapply scans_nz; eauto.
Qed.
Lemma compare_illformed_refuted : exists a b, cstring a /\ cstring b /\ a <> b /\ ustrcmp (a ++ [0]) (b ++ [0]) = Ok 0%Z.
Proof.
  exists [0xff], [0xc3]. split; [|split; [|split; [discriminate|vm_compute; auto]]]; (split; [repeat constructor|]); cbn; intuition discriminate.
Qed.
Lemma search_wellformed : forall cs pat r r', Forall char_ok cs -> Forall char_ok pat -> pat <> [] ->
  (exists o, ustrstr_range (encode cs ++ 0 :: r) (encode pat ++ 0 :: r') = Ok o /\
     match o with
     | Some (loc, len) => occurs_at pat cs loc /\ len = length pat /\ forall q, (q < loc)%nat -> ~ occurs_at pat cs q
     | None => forall q, ~ occurs_at pat cs q
     end) /\
  (exists o, ustrstr (encode cs ++ 0 :: r) (encode pat ++ 0 :: r') = Ok o /\
     match o with
     | Some off => exists loc, off = length (encode (firstn loc cs)) /\ occurs_at pat cs loc /\ forall q, (q < loc)%nat -> ~ occurs_at pat cs q
     | None => forall q, ~ occurs_at pat cs q
     end).
Proof.
  intros cs pat r r' H1 H2 H3. destruct (ustrstr_correct cs pat r r' H1 H2 H3) as (o & E & Ho). unfold ustrstr_range, ustrstr. rewrite E. cbn [obind].
  split; (eexists; split; [reflexivity|]); destruct o as [[[off loc] len]|]; cbn [option_map fst snd]; auto; destruct Ho as (A & B & C & D); auto.
  exists loc. auto.
Qed.
