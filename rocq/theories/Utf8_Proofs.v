(** Proofs about UTF-8 scanning and writing. *)
Require Import Coq.ZArith.ZArith Coq.NArith.NArith Coq.Lists.List Coq.Bool.Bool Coq.Arith.Arith Coq.micromega.Lia Coq.micromega.ZifyN Coq.micromega.ZifyNat.
Require Import Verif.Base Verif.Utf8_Model Verif.Utf8_Spec.
Import ListNotations.
Local Open Scope N_scope.
Ltac Zify.zify_post_hook ::= Z.div_mod_to_equations.

(** ** Bits *)
Lemma lor_low : forall a n t, t < 2^n -> N.lor (N.shiftl a n) t = a * 2^n + t.
Proof.
  intros a n t H. rewrite <- N.shiftl_mul_pow2. symmetry. 
  rewrite N.add_nocarry_lxor.
  - apply N.bits_inj. intros k. rewrite N.lxor_spec, N.lor_spec.
    destruct (N.lt_ge_cases k n).
    + rewrite N.shiftl_spec_low by auto. destruct (N.testbit t k); auto.
    + replace (N.testbit t k) with false; [destruct (N.testbit _ k); auto|].
      symmetry. destruct (N.eq_dec t 0) as [->|Ht]; [apply N.bits_0|]. apply N.bits_above_log2.
      apply N.log2_lt_pow2; [lia|]. eapply N.lt_le_trans; eauto. apply N.pow_le_mono_r; lia.
  - apply N.bits_inj. intros k. rewrite N.land_spec, N.bits_0. destruct (N.lt_ge_cases k n).
    + rewrite N.shiftl_spec_low by auto. auto.
    + replace (N.testbit t k) with false; [apply andb_false_r|].
      symmetry. destruct (N.eq_dec t 0) as [->|Ht]; [apply N.bits_0|]. apply N.bits_above_log2.
      apply N.log2_lt_pow2; [lia|]. eapply N.lt_le_trans; eauto. apply N.pow_le_mono_r; lia.
Qed.
Lemma lor6 : forall a t, t < 64 -> N.lor (N.shiftl a 6) t = a * 64 + t.
Proof. intros. apply (lor_low a 6 t). auto. Qed.
Lemma land_mod : forall a n, N.land a (2^n - 1) = a mod 2^n.
Proof. intros. rewrite N.sub_1_r, <- N.ones_equiv. apply N.land_ones. Qed.

Lemma count_trail_cases : forall b, b < 256 ->
  (b < 0xc0 /\ count_trail b = 0) \/ (0xc0 <= b < 0xe0 /\ count_trail b = 1) \/ (0xe0 <= b < 0xf0 /\ count_trail b = 2) \/
  (0xf0 <= b < 0xf8 /\ count_trail b = 3) \/ (0xf8 <= b < 0xfc /\ count_trail b = 4) \/ (0xfc <= b < 0xfe /\ count_trail b = 5) \/
  (0xfe <= b /\ count_trail b = 0).
Proof.
  intros b H. unfold count_trail.
  destruct (b <? 0xf0) eqn:E1; [apply N.ltb_lt in E1|apply N.ltb_ge in E1].
  - destruct (0xc0 <=? b) eqn:E2; [apply N.leb_le in E2|apply N.leb_gt in E2];
      (destruct (0xe0 <=? b) eqn:E3; [apply N.leb_le in E3|apply N.leb_gt in E3]); cbn; lia.
  - destruct (b <? 0xfe) eqn:E2; [apply N.ltb_lt in E2|apply N.ltb_ge in E2]; [|lia].
    destruct (0xf8 <=? b) eqn:E3; [apply N.leb_le in E3|apply N.leb_gt in E3];
      (destruct (0xfc <=? b) eqn:E4; [apply N.leb_le in E4|apply N.leb_gt in E4]); cbn; lia.
Qed.

Lemma land_c0 : forall b, b < 256 -> N.land b 0xc0 = b / 64 * 64.
Proof.
  intros b H. assert (E : forallb (fun k => N.land (N.of_nat k) 0xc0 =? N.of_nat k / 64 * 64) (seq 0 256) = true) by (vm_compute; auto).
  rewrite forallb_forall in E. specialize (E (N.to_nat b)). rewrite N2Nat.id in E. apply N.eqb_eq, E. apply in_seq. lia.
Qed.
Lemma is_trail_iff : forall b, b < 256 -> is_trail b = ((0x80 <=? b) && (b <? 0xc0)).
Proof.
  intros b H. unfold is_trail. rewrite land_c0 by auto.
  destruct (0x80 <=? b) eqn:E1, (b <? 0xc0) eqn:E2; rewrite ?N.leb_le, ?N.leb_gt, ?N.ltb_lt, ?N.ltb_ge in *; cbn [andb];
    try (apply N.eqb_eq; lia); apply N.eqb_neq; lia.
Qed.

(** ** Reading *)
Lemma rd_cons : forall b s i, rd (b :: s) (S i) = rd s i.
Proof. auto. Qed.
Lemma rd_0 : forall b s, rd (b :: s) 0 = Ok b.
Proof. auto. Qed.

Lemma trail_is : forall s i b, rd s i = Ok b -> trail s i = Ok ((b + 256 - 128) mod 256).
Proof. intros. unfold trail. rewrite H. auto. Qed.

Ltac cmp_cases :=
  repeat match goal with
  | |- context [?a <? ?b] => let E := fresh "C" in destruct (a <? b) eqn:E; [apply N.ltb_lt in E|apply N.ltb_ge in E]
  | |- context [?a <=? ?b] => let E := fresh "C" in destruct (a <=? b) eqn:E; [apply N.leb_le in E|apply N.leb_gt in E]
  | |- context [?a =? ?b] => let E := fresh "C" in destruct (a =? b) eqn:E; [apply N.eqb_eq in E|apply N.eqb_neq in E]
  end.

Lemma utf8_bytes : forall c, scalar c -> bytes_ok (utf8 c).
Proof.
  intros c [H _]. unfold utf8, bytes_ok. cmp_cases; repeat (apply Forall_cons; [lia|]); apply Forall_nil.
Qed.

Ltac ok_true b := replace b with true by (symmetry; first [apply N.leb_le | apply N.ltb_lt | apply N.eqb_eq]; lia).
Ltac ok_false b := replace b with false by (symmetry; first [apply N.leb_gt | apply N.ltb_ge | apply N.eqb_neq]; lia).

(** The bits of a lead byte. *)
Lemma mask1 : forall b, mask_lead b 1 = b mod 32.
Proof. intros. unfold mask_lead. apply (land_mod b 5). Qed.
Lemma mask2 : forall b, mask_lead b 2 = b mod 16.
Proof. intros. unfold mask_lead. apply (land_mod b 4). Qed.
Lemma mask3 : forall b, mask_lead b 3 = b mod 8.
Proof. intros. unfold mask_lead. apply (land_mod b 3). Qed.

Lemma land_ffe0 : forall c, c < 65536 -> N.land c 0xffe0 = c / 32 * 32.
Proof.
  intros c H. apply N.bits_inj. intros k.
  replace 0xffe0 with (N.shiftl (2^11 - 1) 5) by reflexivity.
  replace (c / 32 * 32) with (N.shiftl (N.shiftr c 5) 5) by (rewrite N.shiftl_mul_pow2, N.shiftr_div_pow2; auto).
  rewrite N.land_spec. destruct (N.lt_ge_cases k 5).
  - rewrite !N.shiftl_spec_low by auto. apply andb_false_r.
  - rewrite !N.shiftl_spec_high' by auto. rewrite N.shiftr_spec', N.sub_add by auto.
    replace (N.pos 2047) with (N.ones 11) by reflexivity. change (2^11 - 1) with (N.ones 11).
    destruct (N.lt_ge_cases (k - 5) 11).
    + rewrite N.ones_spec_low by auto. apply andb_true_r.
    + replace (N.testbit c k) with false; auto. symmetry. destruct (N.eq_dec c 0) as [->|Hc]; [apply N.bits_0|].
      apply N.bits_above_log2. apply N.log2_lt_pow2; [lia|]. apply N.lt_le_trans with (2^16); auto. apply N.pow_le_mono_r; lia.
Qed.

Theorem next_utf8 : forall c rest, scalar c -> u8_next (utf8 c ++ rest) = Ok (Z.of_N c, length (utf8 c)).
Proof.
  intros c rest [H1 H2]. unfold utf8.
  destruct (c <? 0x80) eqn:C1; [|apply N.ltb_ge in C1; destruct (c <? 0x800) eqn:C2; [apply N.ltb_lt in C2|apply N.ltb_ge in C2;
    destruct (c <? 0x10000) eqn:C3; [apply N.ltb_lt in C3|apply N.ltb_ge in C3]]].
  - cbn [app length]. unfold u8_next. rewrite rd_0. cbn [obind]. rewrite C1. auto.
  - (* two bytes *)
    cbn [app length]. unfold u8_next, trail. rewrite !rd_cons, !rd_0. cbn [obind].
    ok_false (192 + c / 64 <? 128). ok_false (224 <? 192 + c / 64). cbn [andb obind].
    ok_true (192 + c / 64 <? 224). ok_true (194 <=? 192 + c / 64). cbn [andb].
    replace ((128 + c mod 64 + 256 - 128) mod 256) with (c mod 64) by lia. ok_true (c mod 64 <=? 63). cbn [obind].
    change 31 with (2^5-1). rewrite land_mod, lor6 by lia. do 2 f_equal. lia.
  - (* three bytes *)
    cbn [app length]. unfold u8_next, trail. rewrite !rd_cons, !rd_0. cbn [obind].
    ok_false (224 + c / 4096 <? 128).
    replace ((128 + c / 64 mod 64 + 256 - 128) mod 256) with (c / 64 mod 64) by lia.
    replace ((128 + c mod 64 + 256 - 128) mod 256) with (c mod 64) by lia.
    ok_true (c / 64 mod 64 <=? 63). ok_true (c mod 64 <=? 63).
    destruct ((224 <? 224 + c / 4096) && (224 + c / 4096 <=? 236)) eqn:E.
    + cbn [obind]. apply andb_true_iff in E. destruct E as [E1 E2]. apply N.ltb_lt in E1. apply N.leb_le in E2.
      replace (N.lor (N.shiftl (224 + c / 4096) 12) (N.shiftl (c / 64 mod 64) 6)) with (N.shiftl ((224 + c / 4096) * 64 + c / 64 mod 64) 6).
      2:{ rewrite lor_low; [rewrite !N.shiftl_mul_pow2; cbn; lia|]. rewrite N.shiftl_mul_pow2. cbn. lia. }
      rewrite lor6 by lia. do 3 f_equal. lia.
    + cbn [obind]. ok_false (224 + c / 4096 <? 224). cbn [andb obind]. unfold next_safe_body.
      assert (Hct : count_trail (224 + c / 4096) = 2) by (destruct (count_trail_cases (224 + c / 4096)) as [[? ?]|[[? ?]|[[? ?]|[[? ?]|[[? ?]|[[? ?]|[? ?]]]]]]]; lia).
      rewrite Hct, mask2. unfold next_case2, next_case1, trail. rewrite !rd_cons, !rd_0. cbn [obind].
      replace ((128 + c / 64 mod 64 + 256 - 128) mod 256) with (c / 64 mod 64) by lia.
      replace ((128 + c mod 64 + 256 - 128) mod 256) with (c mod 64) by lia.
      rewrite !lor6 by lia. replace ((224 + c / 4096) mod 16 * 64 + c / 64 mod 64) with (c / 64) by lia.
      rewrite land_ffe0 by lia. ok_false (c / 64 / 32 * 32 =? 864). ok_false (63 <? c / 64 mod 64). ok_false (63 <? c mod 64). cbn [orb].
      replace (c / 64 * 64 + c mod 64) with c by lia. cbn [min_legal]. ok_true (2048 <=? c). auto.
  - (* four bytes *)
    cbn [app length]. unfold u8_next, trail. rewrite !rd_cons, !rd_0. cbn [obind].
    ok_false (240 + c / 262144 <? 128). ok_false (240 + c / 262144 <=? 236). rewrite andb_false_r. cbn [obind].
    ok_false (240 + c / 262144 <? 224). cbn [andb obind]. unfold next_safe_body.
    assert (Hct : count_trail (240 + c / 262144) = 3) by (destruct (count_trail_cases (240 + c / 262144)) as [[? ?]|[[? ?]|[[? ?]|[[? ?]|[[? ?]|[[? ?]|[? ?]]]]]]]; lia).
    rewrite Hct, mask3. unfold next_case2, next_case1, trail. rewrite !rd_cons, !rd_0. cbn [obind].
    replace ((128 + c / 4096 mod 64 + 256 - 128) mod 256) with (c / 4096 mod 64) by lia.
    replace ((128 + c / 64 mod 64 + 256 - 128) mod 256) with (c / 64 mod 64) by lia.
    replace ((128 + c mod 64 + 256 - 128) mod 256) with (c mod 64) by lia.
    rewrite !lor6 by lia. replace ((240 + c / 262144) mod 8 * 64 + c / 4096 mod 64) with (c / 4096) by lia.
    replace (c / 4096 * 64 + c / 64 mod 64) with (c / 64) by lia. replace (c / 64 * 64 + c mod 64) with c by lia.
    ok_false (272 <=? c / 4096). ok_false (63 <? c / 4096 mod 64). cbn [orb].
    rewrite land_ffe0 by lia. ok_false (c / 64 / 32 * 32 =? 864). ok_false (63 <? c / 64 mod 64). ok_false (63 <? c mod 64). cbn [orb min_legal].
    ok_true (65536 <=? c). auto.
Qed.

(** ** Scanning arbitrary NUL-terminated bytes *)
Section Next.
Variable s0 r : list N.
Hypothesis Hc : cstring s0.
Notation s := (s0 ++ 0 :: r).

Lemma rd_in : forall i, (i < length s0)%nat -> exists b, nth_error s0 i = Some b /\ rd s i = Ok b /\ 0 < b < 256.
Proof.
  intros i Hi. destruct (nth_error s0 i) as [b|] eqn:E; [|apply nth_error_None in E; lia].
  exists b. unfold rd. rewrite nth_error_app1 by auto. rewrite E. split; [auto|split; [auto|]].
  destruct Hc as [Hb Hn]. apply nth_error_In in E. unfold bytes_ok in Hb. rewrite Forall_forall in Hb. specialize (Hb _ E).
  assert (b <> 0) by (intros ->; auto). lia.
Qed.
Lemma rd_end : rd s (length s0) = Ok 0.
Proof. unfold rd. rewrite nth_error_app2 by lia. rewrite Nat.sub_diag. auto. Qed.

Lemma trail_cases : forall i, (i <= length s0)%nat ->
  exists t, trail s i = Ok t /\ (63 < t \/ (t <= 63 /\ nth_error s0 i = Some (128 + t))).
Proof.
  intros i Hi. destruct (Nat.eq_dec i (length s0)) as [->|Hne].
  - exists 128. unfold trail. rewrite rd_end. cbn. split; auto. left. lia.
  - destruct (rd_in i) as (b & E1 & E2 & E3); [lia|]. exists ((b + 256 - 128) mod 256). unfold trail. rewrite E2. split; [auto|].
    destruct (N.le_gt_cases ((b + 256 - 128) mod 256) 63); [right|left; auto]. split; auto. rewrite E1. f_equal. lia.
Qed.
Lemma nth_lt : forall i b, nth_error s0 i = Some b -> (S i <= length s0)%nat.
Proof. intros. assert (i < length s0)%nat; [apply nth_error_Some; congruence|lia]. Qed.

Lemma skip_trail_ok : forall k i, (i <= length s0)%nat ->
  exists j, skip_trail k s i = Ok j /\ (i <= j <= length s0)%nat /\ Forall trail_byte (firstn (j - i) (skipn i s0)).
Proof.
  induction k; intros i Hi; cbn [skip_trail].
  - exists i. split; auto. split; [lia|]. rewrite Nat.sub_diag. constructor.
  - destruct (Nat.eq_dec i (length s0)) as [->|Hne].
    + rewrite rd_end. cbn. exists (length s0). split; auto. split; [lia|]. rewrite Nat.sub_diag. constructor.
    + destruct (rd_in i) as (b & E1 & E2 & Hb); [lia|]. rewrite E2. cbn [obind]. destruct (is_trail b) eqn:Et.
      * destruct (IHk (S i)) as (j & E & Hj & Hf); [lia|]. exists j. split; auto. split; [lia|].
        assert (Es : skipn i s0 = b :: skipn (S i) s0).
        { clear - E1. revert i E1. induction s0; intros [|i] E1; cbn in *; try congruence. rewrite (IHl i E1). auto. }
        rewrite Es. replace (j - i)%nat with (S (j - S i)) by lia. cbn [firstn]. constructor; auto.
        rewrite is_trail_iff in Et by lia. apply andb_true_iff in Et. destruct Et as [Et1 Et2].
        apply N.leb_le in Et1. apply N.ltb_lt in Et2. unfold trail_byte. lia.
      * exists i. split; auto. split; [lia|]. rewrite Nat.sub_diag. constructor.
Qed.

Lemma case1_ok : forall i c count, (i <= length s0)%nat ->
  exists o, next_case1 s i c count = Ok o /\
    (o = None \/ exists t, t <= 63 /\ nth_error s0 i = Some (128 + t) /\ min_legal count <= c * 64 + t /\ o = Some (c * 64 + t, S i)).
Proof.
  intros i c count Hi. destruct (trail_cases i Hi) as (t & E & Ht). unfold next_case1. rewrite E. cbn [obind].
  destruct Ht as [Ht|[Ht1 Ht2]].
  - ok_true (63 <? t). exists None. split; auto.
  - ok_false (63 <? t). rewrite lor6 by lia. destruct (min_legal count <=? c * 64 + t) eqn:El.
    + apply N.leb_le in El. eexists. split; [reflexivity|]. right. exists t. split; [auto|split; [auto|split; auto]].
    + exists None. split; auto.
Qed.
Lemma case2_ok : forall i c count, (i <= length s0)%nat -> c < 1024 ->
  exists o, next_case2 s i c count = Ok o /\
    (o = None \/ exists t1 t2, t1 <= 63 /\ t2 <= 63 /\ nth_error s0 i = Some (128 + t1) /\ nth_error s0 (S i) = Some (128 + t2) /\
      (c * 64 + t1) / 32 <> 27 /\
      min_legal count <= (c * 64 + t1) * 64 + t2 /\ o = Some ((c * 64 + t1) * 64 + t2, S (S i))).
Proof.
  intros i c count Hi Hcc. destruct (trail_cases i Hi) as (t & E & Ht). unfold next_case2. rewrite E. cbn [obind].
  destruct Ht as [Ht|[Ht1 Ht2]].
  - ok_true (63 <? t). rewrite orb_true_r. exists None. split; auto.
  - ok_false (63 <? t). rewrite lor6 by lia. rewrite land_ffe0 by lia. rewrite orb_false_r.
    destruct ((c * 64 + t) / 32 * 32 =? 864) eqn:El.
    + exists None. split; auto.
    + apply N.eqb_neq in El. destruct (case1_ok (S i) (c * 64 + t) count) as (o & Eo & Ho); [eapply nth_lt; eauto|].
      exists o. split; [auto|]. destruct Ho as [Ho|(t2 & A1 & A2 & A3 & A4)]; [left; auto|right].
      exists t, t2. repeat (split; [solve [auto|lia]|]). auto.
Qed.

Definition scanned (z : Z) (n : nat) : Prop :=
  (1 <= n <= length s0)%nat /\
  ((z = (-1)%Z /\ Forall trail_byte (firstn (n - 1) (skipn 1 s0))) \/ exists c, char_ok c /\ z = Z.of_N c /\ firstn n s0 = utf8 c).

Lemma firstn_nth1 : forall a, nth_error s0 0 = Some a -> firstn 1 s0 = [a].
Proof. clear Hc. intros. destruct s0; inversion H. auto. Qed.
Lemma firstn_nth2 : forall a b, nth_error s0 0 = Some a -> nth_error s0 1 = Some b -> firstn 2 s0 = [a; b].
Proof. clear Hc. intros. destruct s0 as [|? [|? ?]]; inversion H; inversion H0. auto. Qed.
Lemma firstn_nth3 : forall a b c, nth_error s0 0 = Some a -> nth_error s0 1 = Some b -> nth_error s0 2 = Some c -> firstn 3 s0 = [a; b; c].
Proof. clear Hc. intros. destruct s0 as [|? [|? [|? ?]]]; inversion H; inversion H0; inversion H1. auto. Qed.
Lemma firstn_nth4 : forall a b c d, nth_error s0 0 = Some a -> nth_error s0 1 = Some b -> nth_error s0 2 = Some c -> nth_error s0 3 = Some d -> firstn 4 s0 = [a; b; c; d].
Proof. clear Hc. intros. destruct s0 as [|? [|? [|? [|? ?]]]]; inversion H; inversion H0; inversion H1; inversion H2. auto. Qed.

Lemma scanned2 : forall b0 t1, nth_error s0 0 = Some b0 -> nth_error s0 1 = Some (128 + t1) -> 0xc2 <= b0 < 0xe0 -> t1 <= 63 ->
  scanned (Z.of_N ((b0 mod 32) * 64 + t1)) 2.
Proof.
  intros b0 t1 E0 E1 H0 H1. split; [apply nth_lt in E1; lia|]. right. exists ((b0 mod 32) * 64 + t1).
  split; [unfold char_ok, scalar; lia|]. split; auto. rewrite (firstn_nth2 _ _ E0 E1). unfold utf8.
  ok_false (b0 mod 32 * 64 + t1 <? 128). ok_true (b0 mod 32 * 64 + t1 <? 2048). repeat f_equal; lia.
Qed.
Lemma scanned3 : forall b0 t1 t2, nth_error s0 0 = Some b0 -> nth_error s0 1 = Some (128 + t1) -> nth_error s0 2 = Some (128 + t2) ->
  0xe0 <= b0 < 0xf0 -> t1 <= 63 -> t2 <= 63 -> 0x800 <= (b0 mod 16 * 64 + t1) * 64 + t2 -> (b0 mod 16 * 64 + t1) / 32 <> 27 ->
  scanned (Z.of_N ((b0 mod 16 * 64 + t1) * 64 + t2)) 3.
Proof.
  intros b0 t1 t2 E0 E1 E2 H0 H1 H2 Hm Hs. split; [apply nth_lt in E2; lia|]. right. exists ((b0 mod 16 * 64 + t1) * 64 + t2).
  split; [unfold char_ok, scalar; lia|]. split; auto. rewrite (firstn_nth3 _ _ _ E0 E1 E2). unfold utf8.
  ok_false ((b0 mod 16 * 64 + t1) * 64 + t2 <? 128). ok_false ((b0 mod 16 * 64 + t1) * 64 + t2 <? 2048).
  ok_true ((b0 mod 16 * 64 + t1) * 64 + t2 <? 65536). repeat f_equal; lia.
Qed.
Lemma scanned4 : forall b0 t1 t2 t3, nth_error s0 0 = Some b0 -> nth_error s0 1 = Some (128 + t1) -> nth_error s0 2 = Some (128 + t2) ->
  nth_error s0 3 = Some (128 + t3) ->
  0xf0 <= b0 < 0xf8 -> t1 <= 63 -> t2 <= 63 -> t3 <= 63 -> b0 mod 8 * 64 + t1 < 272 ->
  0x10000 <= ((b0 mod 8 * 64 + t1) * 64 + t2) * 64 + t3 -> 
  scanned (Z.of_N (((b0 mod 8 * 64 + t1) * 64 + t2) * 64 + t3)) 4.
Proof.
  intros b0 t1 t2 t3 E0 E1 E2 E3 H0 H1 H2 H3 Hb Hm. split; [apply nth_lt in E3; lia|]. right. exists (((b0 mod 8 * 64 + t1) * 64 + t2) * 64 + t3).
  split; [unfold char_ok, scalar; lia|]. split; auto. rewrite (firstn_nth4 _ _ _ _ E0 E1 E2 E3). unfold utf8.
  ok_false (((b0 mod 8 * 64 + t1) * 64 + t2) * 64 + t3 <? 128). ok_false (((b0 mod 8 * 64 + t1) * 64 + t2) * 64 + t3 <? 2048).
  ok_false (((b0 mod 8 * 64 + t1) * 64 + t2) * 64 + t3 <? 65536). repeat f_equal; lia.
Qed.

Lemma safe_body_ok : forall b0, nth_error s0 0 = Some b0 -> 128 <= b0 < 256 ->
  exists z n, next_safe_body s b0 = Ok (z, n) /\ scanned z n.
Proof.
  intros b0 E0 H0. assert (Hl : (1 <= length s0)%nat) by (apply nth_lt in E0; auto). unfold next_safe_body.
  assert (Hskip : forall k, exists z n, (do i <- skip_trail k s 1; Ok ((-1)%Z, i)) = Ok (z, n) /\ scanned z n).
  { intros k. destruct (skip_trail_ok k 1 Hl) as (j & E & Hj & Hf). rewrite E. exists (-1)%Z, j. split; auto. split; [lia|auto]. }
  destruct (count_trail_cases b0) as [[Hb ->]|[[Hb ->]|[[Hb ->]|[[Hb ->]|[[Hb ->]|[[Hb ->]|[Hb ->]]]]]]]; [lia| | | | | | |]; try (cbn [obind]; apply Hskip).
  - rewrite mask1. destruct (case1_ok 1 (b0 mod 32) 1 Hl) as (o & -> & Ho). cbn [obind]. destruct Ho as [->|(t & A1 & A2 & A3 & ->)].
    + apply Hskip.
    + eexists _, _. split; [reflexivity|]. cbn [min_legal] in A3. apply scanned2; auto. lia.
  - rewrite mask2. destruct (case2_ok 1 (b0 mod 16) 2 Hl) as (o & -> & Ho); [lia|]. cbn [obind].
    destruct Ho as [->|(t1 & t2 & A1 & A2 & A3 & A4 & A5 & A6 & ->)].
    + apply Hskip.
    + eexists _, _. split; [reflexivity|]. cbn [min_legal] in A6. apply scanned3; auto.
  - rewrite mask3. destruct (trail_cases 1 Hl) as (t & E & Ht). rewrite E. cbn [obind]. destruct Ht as [Ht|[Ht1 Ht2]].
    + ok_true (63 <? t). rewrite orb_true_r. cbn [obind]. apply Hskip.
    + ok_false (63 <? t). rewrite orb_false_r. rewrite lor6 by lia. destruct (272 <=? b0 mod 8 * 64 + t) eqn:El; [cbn [obind]; apply Hskip|].
      apply N.leb_gt in El. destruct (case2_ok 2 (b0 mod 8 * 64 + t) 3) as (o & -> & Ho); [eapply nth_lt; eauto|lia|]. cbn [obind].
      destruct Ho as [->|(t1 & t2 & A1 & A2 & A3 & A4 & A5 & A6 & ->)].
      * apply Hskip.
      * eexists _, _. split; [reflexivity|]. cbn [min_legal] in A6. apply scanned4; auto.
Qed.

Theorem next_ok : s0 <> [] -> exists z n, u8_next s = Ok (z, n) /\ scanned z n.
Proof.
  intros Hne. assert (Hl : (1 <= length s0)%nat) by (destruct s0; [congruence|cbn; lia]).
  destruct (rd_in 0 Hl) as (b0 & E0 & E1 & Hb). unfold u8_next. rewrite E1. cbn [obind].
  destruct (b0 <? 128) eqn:C1; [apply N.ltb_lt in C1|apply N.ltb_ge in C1].
  { eexists _, _. split; [reflexivity|]. split; [lia|]. right. exists b0. split; [unfold char_ok, scalar; lia|]. split; auto.
    rewrite (firstn_nth1 _ E0). unfold utf8. ok_true (b0 <? 128). auto. }
  destruct (trail_cases 1 Hl) as (t1 & E & Ht1). rewrite E. cbn [obind].
  assert (Hsafe := safe_body_ok b0 E0 ltac:(lia)).
  destruct ((224 <? b0) && (b0 <=? 236)) eqn:C3.
  - apply andb_true_iff in C3. destruct C3 as [C3 C4]. apply N.ltb_lt in C3. apply N.leb_le in C4.
    ok_false (b0 <? 224). cbn [andb obind]. destruct Ht1 as [Ht1|[Ht1 Ht1']].
    + ok_false (t1 <=? 63). cbn [obind]. auto.
    + ok_true (t1 <=? 63). destruct (trail_cases 2) as (t2 & E2 & Ht2); [eapply nth_lt; eauto|]. rewrite E2. cbn [obind].
      destruct Ht2 as [Ht2|[Ht2 Ht2']].
      * ok_false (t2 <=? 63). cbn [obind]. auto.
      * ok_true (t2 <=? 63). cbn [obind]. eexists _, _. split; [reflexivity|].
        replace (N.lor (N.shiftl b0 12) (N.shiftl t1 6)) with (N.shiftl (b0 * 64 + t1) 6).
        2:{ rewrite lor_low; [rewrite !N.shiftl_mul_pow2; cbn; lia|]. rewrite N.shiftl_mul_pow2. cbn. lia. }
        rewrite lor6 by lia. replace (((b0 * 64 + t1) * 64 + t2) mod 65536) with ((b0 mod 16 * 64 + t1) * 64 + t2) by lia.
        apply scanned3; auto; lia.
  - cbn [obind]. destruct ((b0 <? 224) && (194 <=? b0)) eqn:C5; [|cbn [obind]; auto].
    apply andb_true_iff in C5. destruct C5 as [C5 C6]. apply N.ltb_lt in C5. apply N.leb_le in C6.
    destruct Ht1 as [Ht1|[Ht1 Ht1']].
    + ok_false (t1 <=? 63). cbn [obind]. auto.
    + ok_true (t1 <=? 63). cbn [obind]. eexists _, _. split; [reflexivity|].
      change 31 with (2^5-1). rewrite land_mod, lor6 by lia. apply scanned2; auto.
Qed.

Lemma next_end : s0 = [] -> u8_next s = Ok (0%Z, 1%nat).
Proof. clear Hc. intros ->. auto. Qed.
End Next.

(** ** Reading depends only on the bytes up to the terminator *)
Definition ext {A} (o o' : outcome A) : Prop := forall x, o = Ok x -> o' = Ok x.
Lemma ext_refl : forall A (o : outcome A), ext o o.
Proof. intros A o x H. auto. Qed.
Lemma ext_bind : forall A B (o o' : outcome A) (f f' : A -> outcome B), ext o o' -> (forall a, ext (f a) (f' a)) -> ext (obind o f) (obind o' f').
Proof. intros A B o o' f f' H1 H2 x Hx. apply obind_ok in Hx. destruct Hx as (a & Ha & Hf). rewrite (H1 _ Ha). cbn. apply H2. auto. Qed.
Lemma ext_if : forall A (b : bool) (o1 o1' o2 o2' : outcome A), ext o1 o1' -> ext o2 o2' -> ext (if b then o1 else o2) (if b then o1' else o2').
Proof. intros. destruct b; auto. Qed.

Section Ext.
Variable s r : list N.
Lemma rd_ext : forall i, ext (rd s i) (rd (s ++ r) i).
Proof.
  intros i x. unfold rd. destruct (nth_error s i) eqn:E; [|discriminate]. intros H.
  rewrite nth_error_app1; [rewrite E; auto|]. apply nth_error_Some. congruence.
Qed.
Lemma trail_ext : forall i, ext (trail s i) (trail (s ++ r) i).
Proof. intros. unfold trail. apply ext_bind; [apply rd_ext|intros; apply ext_refl]. Qed.
Lemma case1_ext : forall i c n, ext (next_case1 s i c n) (next_case1 (s ++ r) i c n).
Proof. intros. unfold next_case1. apply ext_bind; [apply trail_ext|intros; apply ext_refl]. Qed.
Lemma case2_ext : forall i c n, ext (next_case2 s i c n) (next_case2 (s ++ r) i c n).
Proof. intros. unfold next_case2. apply ext_bind; [apply trail_ext|intros; apply ext_if; [apply ext_refl|apply case1_ext]]. Qed.
Lemma skip_ext : forall k i, ext (skip_trail k s i) (skip_trail k (s ++ r) i).
Proof. induction k; intros; [apply ext_refl|]. cbn. apply ext_bind; [apply rd_ext|intros; apply ext_if; auto; apply ext_refl]. Qed.
Lemma safe_ext : forall c, ext (next_safe_body s c) (next_safe_body (s ++ r) c).
Proof.
  intros. unfold next_safe_body. apply ext_bind.
  - destruct (count_trail c) as [|p]; [apply ext_refl|]. destruct p as [[p|p|]|[p|p|]|]; try apply ext_refl.
    + apply ext_bind; [apply trail_ext|intros; apply ext_if; [apply ext_refl|apply case2_ext]].
    + apply case2_ext.
    + apply case1_ext.
  - intros [[c' i]|]; [apply ext_refl|]. apply ext_bind; [apply skip_ext|intros; apply ext_refl].
Qed.
Lemma next_ext : ext (u8_next s) (u8_next (s ++ r)).
Proof.
  unfold u8_next. apply ext_bind; [apply rd_ext|intros]. apply ext_if; [apply ext_refl|]. apply ext_bind.
  - apply ext_if; [|apply ext_refl]. apply ext_bind; [apply trail_ext|intros]. apply ext_if; [|apply ext_refl].
    apply ext_bind; [apply trail_ext|intros; apply ext_refl].
  - intros [c|]; [apply ext_refl|]. apply ext_bind; [|intros [c|]; [apply ext_refl|apply safe_ext]].
    apply ext_if; [|apply ext_refl]. apply ext_bind; [apply trail_ext|intros; apply ext_refl].
Qed.
End Ext.

(** ** The characters of an arbitrary string *)
Lemma cstring_skipn : forall n s, cstring s -> cstring (skipn n s).
Proof.
  intros n s [H1 H2]. rewrite <- (firstn_skipn n s) in H1, H2. unfold bytes_ok in *. split.
  - apply Forall_app in H1. tauto.
  - intros H. apply H2. apply in_app_iff. auto.
Qed.
Lemma skipn_term : forall n s r, (n <= length s)%nat -> skipn n (s ++ 0 :: r) = skipn n s ++ 0 :: r.
Proof. intros. rewrite skipn_app. replace (n - length s)%nat with 0%nat by lia. auto. Qed.

Lemma next_char : forall s, cstring s -> s <> [] ->
  exists z n, (forall r, u8_next (s ++ 0 :: r) = Ok (z, n)) /\ scanned s z n.
Proof.
  intros s Hc Hne. destruct (next_ok s [] Hc Hne) as (z & n & E & H). exists z, n. split; auto.
  intros r. change (0 :: r) with ([0] ++ r). rewrite app_assoc. apply next_ext. auto.
Qed.
Lemma scanned_nonzero : forall s z n, scanned s z n -> z <> 0%Z.
Proof. intros s z n [_ [[-> _]|(c & [_ H] & -> & _)]]; lia. Qed.

Inductive scans : list N -> list Z -> Prop :=
| sc_end : scans [] []
| sc_next : forall s z n zs, cstring s -> s <> [] -> (forall r, u8_next (s ++ 0 :: r) = Ok (z, n)) -> scanned s z n ->
    scans (skipn n s) zs -> scans s (z :: zs).

Lemma scans_total : forall k s, (length s <= k)%nat -> cstring s -> exists zs, scans s zs /\ (length zs <= length s)%nat.
Proof.
  induction k; intros s Hk Hc.
  - destruct s; [|cbn in Hk; lia]. exists []. split; [constructor|auto].
  - destruct s as [|b s']; [exists []; split; [constructor|auto]|]. set (s := b :: s') in *.
    destruct (next_char s Hc) as (z & n & E & Hn); [subst s; congruence|].
    destruct (IHk (skipn n s)) as (zs & Hz & Hl).
    + rewrite skipn_length. destruct Hn as [Hn _]. lia.
    + apply cstring_skipn. auto.
    + exists (z :: zs). split.
      * econstructor; eauto. subst s; congruence.
      * cbn [length]. rewrite skipn_length in Hl. destruct Hn as [Hn _]. lia.
Qed.

Lemma scans_decodes : forall s zs, scans s zs -> decodes s zs.
Proof.
  induction 1 as [|s z n zs Hc Hne E Hn Hs IH]; [constructor|].
  destruct Hn as [Hl [[-> Hf]|(c & H1 & -> & H3)]].
  - destruct s as [|b s']; [congruence|]. cbn [skipn] in Hf.
    assert (Es : b :: s' = b :: firstn (n - 1) s' ++ skipn n (b :: s')).
    { destruct n as [|n]; [lia|]. cbn [skipn]. replace (S n - 1)%nat with n by lia. rewrite firstn_skipn. auto. }
    rewrite Es at 1. constructor; auto. intros c t [Hc1 Hc2] Heq. rewrite <- Es in Heq.
    specialize (E []). rewrite Heq, <- app_assoc, next_utf8 in E by auto. inversion E. lia.
  - rewrite <- (firstn_skipn n s), H3. constructor; auto.
Qed.

Lemma utf8_nonempty : forall c, (1 <= length (utf8 c) <= 4)%nat.
Proof. intros. unfold utf8. cmp_cases; cbn; lia. Qed.
Lemma utf8_nonzero : forall c, c <> 0 -> ~ In 0 (utf8 c).
Proof. intros c H. unfold utf8. cmp_cases; cbn [In]; lia. Qed.
Lemma utf8_cstring : forall c, char_ok c -> cstring (utf8 c).
Proof. intros c [H1 H2]. split; [apply utf8_bytes; auto|apply utf8_nonzero; auto]. Qed.
Lemma encode_cons : forall c cs, encode (c :: cs) = utf8 c ++ encode cs.
Proof. auto. Qed.
Lemma encode_app : forall a b, encode (a ++ b) = encode a ++ encode b.
Proof. intros. unfold encode. rewrite map_app, concat_app. auto. Qed.
Lemma encode_cstring : forall cs, Forall char_ok cs -> cstring (encode cs).
Proof.
  induction 1 as [|c cs H1 H2 [IH1 IH2]]; [split; [constructor|auto]|]. rewrite encode_cons. destruct (utf8_cstring c H1) as [A B].
  split; [apply Forall_app; auto|]. rewrite in_app_iff. tauto.
Qed.
Lemma skipn_len_app : forall A (a b : list A), skipn (length a) (a ++ b) = b.
Proof. intros. rewrite skipn_app, skipn_all, Nat.sub_diag. auto. Qed.

Lemma scans_encode : forall cs, Forall char_ok cs -> scans (encode cs) (map Z.of_N cs).
Proof.
  induction cs as [|c cs IH]; intros H; [constructor|]. inversion H as [|? ? H1 H2]; subst. cbn [map]. rewrite encode_cons.
  assert (Hl := utf8_nonempty c).
  apply sc_next with (n := length (utf8 c)).
  - rewrite <- encode_cons. apply encode_cstring. auto.
  - intros F. apply app_eq_nil in F. destruct F as [F _]. rewrite F in Hl. cbn in Hl. lia.
  - intros r. rewrite <- app_assoc. apply next_utf8. apply H1.
  - split; [rewrite app_length; lia|]. right. exists c. split; auto. split; auto. rewrite firstn_app, Nat.sub_diag, firstn_all, app_nil_r. auto.
  - rewrite skipn_len_app. auto.
Qed.
Lemma scans_cstring : forall s zs, scans s zs -> cstring s.
Proof. intros s zs H. inversion H; auto. split; [constructor|auto]. Qed.
Lemma scans_det : forall s zs, scans s zs -> forall ws, scans s ws -> zs = ws.
Proof.
  induction 1; intros ws Hw; inversion Hw; subst; try congruence. specialize (H1 []). specialize (H6 []). rewrite H1 in H6. inversion H6; subst.
  f_equal. auto.
Qed.
Lemma scans_nz : forall s zs, scans s zs -> ~ In 0%Z zs.
Proof. induction 1; [auto|]. intros [F|F]; [|auto]. subst. eapply scanned_nonzero; eauto. Qed.
Lemma scans_len : forall s zs, scans s zs -> (length zs <= length s)%nat.
Proof. induction 1; auto. cbn [length]. rewrite skipn_length in IHscans. destruct H2 as [? _]. lia. Qed.

Lemma rd_term : forall r, rd (0 :: r) 0 = Ok 0.
Proof. auto. Qed.
Lemma rd_first : forall s r, cstring s -> s <> [] -> exists b, rd (s ++ 0 :: r) 0 = Ok b /\ (b =? 0) = false.
Proof.
  intros [|b s] r [H1 H2] Hn; [congruence|]. exists b. split; auto. apply N.eqb_neq. intros ->. apply H2. left. auto.
Qed.
Lemma ustrscan_next : forall s r, cstring s -> s <> [] -> ustrscan (s ++ 0 :: r) = u8_next (s ++ 0 :: r).
Proof. intros. unfold ustrscan. destruct (rd_first s r) as (b & -> & Hb); auto. cbn [obind]. rewrite Hb. auto. Qed.
