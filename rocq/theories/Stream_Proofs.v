(** Proofs about streams. *)
Require Import Coq.ZArith.ZArith Coq.NArith.NArith Coq.QArith.QArith Coq.Lists.List Coq.Bool.Bool Coq.micromega.Lia.
Require Import Verif.Base Verif.Utf8_Model Verif.Utf8_Spec Verif.Utf8_Proofs Verif.Strtonum_Model Verif.Strtonum_Spec Verif.Stream_Model Verif.Stream_Spec.
Import ListNotations.
Local Open Scope N_scope.

(** ** Trimming zeros *)
Lemma find_point_none : forall s, find_point s = None -> ~ In 46 s.
Proof.
  induction s as [|b s IH]; intros H; [intros []|]. cbn in H. destruct (b =? 46) eqn:E; [discriminate|]. apply N.eqb_neq in E.
  destruct (find_point s); [discriminate|]. intros [->|Hin]; [congruence|]. apply IH; auto.
Qed.
Lemma find_point_some : forall s n, find_point s = Some n -> exists i f, s = i ++ 46 :: f /\ length i = n /\ ~ In 46 i.
Proof.
  induction s as [|b s IH]; intros n H; [discriminate|]. cbn in H. destruct (b =? 46) eqn:E.
  - apply N.eqb_eq in E. subst b. injection H as <-. exists [], s. repeat split; auto.
  - apply N.eqb_neq in E. destruct (find_point s) as [m|] eqn:F; [|discriminate]. injection H as <-.
    destruct (IH m eq_refl) as (i & f & -> & Hl & Hi). exists (b :: i), f. repeat split; cbn; auto.
    intros [->|Hin]; [congruence|auto].
Qed.
Lemma trim_loop_spec : forall f i, ~ In 46 i ->
  exists g k, trim_loop (length i + length f) (length i + 1) (i ++ 46 :: f) = i ++ 46 :: g /\ f = g ++ repeat 48 k /\
    (length g = 1%nat \/ (k = 0%nat /\ g = []) \/ exists g' d, g = g' ++ [d] /\ d <> 48).
Proof.
  induction f as [|d f IH] using rev_ind; intros i Hi.
  - exists [], 0%nat. split; [|split; [auto|]]; auto.
    destruct (length i + length (@nil N))%nat eqn:E; [auto|]. cbn [trim_loop]. cbn [length] in E.
    replace (length i + 1 <? S n)%nat with false by (symmetry; apply Nat.ltb_ge; lia). auto.
  - rewrite app_length. cbn [length]. replace (length i + (length f + 1))%nat with (S (length i + length f)) by lia.
    cbn [trim_loop]. destruct f as [|e f0].
    + exists [d], 0%nat. cbn [length]. replace (length i + 1 <? S (length i + 0))%nat with false by (symmetry; apply Nat.ltb_ge; lia).
      cbn. rewrite ?app_nil_r. auto.
    + set (f := e :: f0) in *. replace (length i + 1 <? S (length i + length f))%nat with true by (symmetry; apply Nat.ltb_lt; unfold f; cbn [length]; lia).
      replace (i ++ 46 :: f ++ [d]) with ((i ++ 46 :: f) ++ [d]) by (rewrite <- app_assoc; auto).
      assert (L : length (i ++ 46 :: f) = S (length i + length f)) by (rewrite app_length; cbn; lia).
      rewrite <- L. rewrite app_nth2 by lia. rewrite Nat.sub_diag. cbn [nth]. rewrite firstn_app, Nat.sub_diag, firstn_all. cbn [firstn]. rewrite app_nil_r. cbn [andb].
      destruct (d =? 48) eqn:E.
      * apply N.eqb_eq in E. subst d. destruct (IH i Hi) as (g & k & Hg & Hf & Hd). exists g, (S k). split; [auto|]. split; auto.
        { rewrite Hf at 1. rewrite <- app_assoc. f_equal. clear. induction k; cbn; auto. f_equal. auto. }
        destruct Hd as [Hd|[[Hk Hn]|Hd]]; auto.
        exfalso. subst. cbn in Hf. unfold f in Hf. discriminate.
      * apply N.eqb_neq in E. exists (f ++ [d]), 0%nat. rewrite <- app_assoc. cbn. rewrite app_nil_r. split; auto. split; auto.
        right. right. exists f, d. auto.
Qed.

Lemma trim_zeroes_spec : forall t, trimmed t (trim_zeroes t).
Proof.
  intros t. unfold trim_zeroes. destruct (find_point t) as [n|] eqn:E.
  - right. destruct (find_point_some _ _ E) as (i & f & -> & <- & Hi).
    destruct (trim_loop_spec f i Hi) as (g & k & Hg & -> & Hd).
    exists i, g, k. split; [auto|]. split; [auto|]. split; [|auto].
    rewrite app_length. cbn [length]. rewrite <- Hg. f_equal. lia.
  - left. split; auto. apply find_point_none. auto.
Qed.
Lemma trim_no_point : forall t, ~ In 46 t -> trim_zeroes t = t.
Proof.
  intros t H. destruct (trim_zeroes_spec t) as [[_ E]|(i & f & k & _ & E & _)]; auto. exfalso. apply H. rewrite E. apply in_app_iff. right. left. auto.
Qed.
Lemma trimmed_unique : forall t t1 t2, trimmed t t1 -> trimmed t t2 -> t1 = t2.
Proof.
  assert (P : forall i f i' f', ~ In 46 i -> ~ In 46 i' -> i ++ 46 :: f = i' ++ 46 :: f' -> i = i' /\ f = f').
  { induction i as [|b i IH]; intros f [|b' i'] f' H H' E; cbn in E.
    - injection E as ->. auto.
    - injection E as <- _. exfalso. apply H'. left. auto.
    - injection E as -> _. exfalso. apply H. left. auto.
    - injection E as <- E. destruct (IH _ _ _ (fun X => H (or_intror X)) (fun X => H' (or_intror X)) E) as [-> ->]. auto. }
  assert (R : forall k (f' : list N) d g j, f' ++ [d] ++ repeat 48 k = g ++ repeat 48 j -> d <> 48 -> (k <= j)%nat -> k = j).
  { intros k f' d g j E Hd Hk. destruct (Nat.eq_dec k j) as [|Hne]; auto. exfalso.
    replace j with (S (j - k - 1) + k)%nat in E by lia. rewrite repeat_app, !app_assoc in E. apply app_inv_tail in E.
    assert (X : last (f' ++ [d]) 0 = d) by apply last_last. rewrite E in X.
    replace (S (j - k - 1))%nat with (j - k - 1 + 1)%nat in X by lia. rewrite repeat_app in X. rewrite app_assoc in X. cbn [repeat] in X. rewrite last_last in X. auto. }
  intros t t1 t2 [[H1 ->]|(i & f & k & Hi & -> & -> & H)] [[H2 ->]|(i' & f' & k' & Hi' & E & -> & H')]; auto.
  - exfalso. apply H1. rewrite E. apply in_app_iff. right. left. auto.
  - exfalso. apply H2. apply in_app_iff. right. left. auto.
  - destruct (P _ _ _ _ Hi Hi' E) as [<- E']. do 2 f_equal.
    assert (K : k = k').
    { destruct H as [H|[[-> ->]|(g & d & -> & Hd)]]; destruct H' as [H'|[[-> ->]|(g' & d' & -> & Hd')]].
      - apply (f_equal (@length N)) in E'. rewrite !app_length, !repeat_length in E'. lia.
      - apply (f_equal (@length N)) in E'. rewrite !app_length, !repeat_length in E'. cbn in E'. lia.
      - destruct (Nat.le_ge_cases k' k) as [L|L].
        + symmetry. rewrite <- app_assoc in E'. symmetry in E'. eapply R; eauto.
        + apply (f_equal (@length N)) in E'. rewrite !app_length, !repeat_length in E'. cbn in E'. lia.
      - apply (f_equal (@length N)) in E'. rewrite !app_length, !repeat_length in E'. cbn in E'. lia.
      - auto.
      - apply (f_equal (@length N)) in E'. rewrite !app_length, !repeat_length in E'. cbn in E'. lia.
      - destruct (Nat.le_ge_cases k k') as [L|L].
        + rewrite <- app_assoc in E'. eapply R; eauto.
        + apply (f_equal (@length N)) in E'. rewrite !app_length, !repeat_length in E'. cbn in E'. lia.
      - apply (f_equal (@length N)) in E'. rewrite !app_length, !repeat_length in E'. cbn in E'. lia.
      - rewrite <- !app_assoc in E'. destruct (Nat.le_ge_cases k k') as [L|L].
        + rewrite (app_assoc g' [d']) in E'. eapply R; eauto.
        + symmetry. rewrite (app_assoc g [d]) in E'. symmetry in E'. eapply R; eauto. }
    subst k'. apply app_inv_tail in E'. auto.
Qed.

Lemma value_app : forall a b, value (a ++ b) = (value a * 10 ^ Z.of_nat (length b) + value b)%Z.
Proof.
  intros a b. unfold value. rewrite fold_left_app. generalize (fold_left (fun v b => 10 * v + (Z.of_N b - 48))%Z a 0%Z). intros z.
  assert (G : forall b z y, fold_left (fun v b => 10 * v + (Z.of_N b - 48))%Z b (z + y)%Z = (z * 10 ^ Z.of_nat (length b) + fold_left (fun v b => 10 * v + (Z.of_N b - 48))%Z b y)%Z).
  { clear. induction b as [|c b IH]; intros z y; cbn [fold_left length]; [cbn; lia|].
    replace (10 * (z + y) + (Z.of_N c - 48))%Z with (10 * z + (10 * y + (Z.of_N c - 48)))%Z by lia.
    rewrite IH. rewrite Nat2Z.inj_succ, Z.pow_succ_r by lia. lia. }
  rewrite <- (Z.add_0_r z) at 1. apply G.
Qed.
Lemma value_zeros : forall k, value (repeat 48 k) = 0%Z.
Proof. induction k; auto. Qed.
Lemma number_trim : forall i f k, Qeq (number i (f ++ repeat 48 k)) (number i f).
Proof.
  intros i f k. unfold number. rewrite app_assoc, value_app, value_zeros, Z.add_0_r, app_length, repeat_length, Nat2Z.inj_add, Z.pow_add_r by lia.
  assert (A : (0 < 10 ^ Z.of_nat (length f))%Z) by (apply Z.pow_pos_nonneg; lia).
  assert (B : (0 < 10 ^ Z.of_nat k)%Z) by (apply Z.pow_pos_nonneg; lia).
  set (x := (10 ^ Z.of_nat (length f))%Z) in *. set (y := (10 ^ Z.of_nat k)%Z) in *. set (v := value (i ++ f)).
  change (v * y # 1) with ((v * y)%Z # 1). change ((x * y)%Z # 1) with (inject_Z (x * y)). change ((v * y)%Z # 1) with (inject_Z (v * y)).
  change (v # 1) with (inject_Z v). change (x # 1) with (inject_Z x). rewrite !inject_Z_mult.
  assert (~ inject_Z x == 0)%Q by (intros Q; unfold Qeq in Q; cbn in Q; lia).
  assert (~ inject_Z y == 0)%Q by (intros Q; unfold Qeq in Q; cbn in Q; lia).
  field. auto.
Qed.
Lemma trim_value : forall i f, ~ In 46 i -> Forall digit f -> exists f', trim_zeroes (i ++ 46 :: f) = i ++ 46 :: f' /\ Forall digit f' /\
  (f <> [] -> f' <> []) /\ (forall g, f' = g ++ [48] -> g = []) /\ Qeq (number i f') (number i f).
Proof.
  intros i f Hi Hf. destruct (trim_loop_spec f i Hi) as (g & k & Hg & -> & Hd).
  exists g. split.
  { rewrite <- Hg. unfold trim_zeroes. destruct (find_point (i ++ 46 :: g ++ repeat 48 k)) as [n|] eqn:E.
    - destruct (find_point_some _ _ E) as (i' & f' & E' & <- & Hi').
      assert (P : forall i f i' f', ~ In 46 i -> ~ In 46 i' -> i ++ 46 :: f = i' ++ 46 :: f' -> i = i').
      { clear. induction i as [|b i IH]; intros f [|b' i'] f' H H' E; cbn in E; auto.
        - injection E as <- _. exfalso. apply H'. left. auto.
        - injection E as -> _. exfalso. apply H. left. auto.
        - injection E as <- E. f_equal. apply (IH _ _ _ (fun X => H (or_intror X)) (fun X => H' (or_intror X)) E). }
      rewrite <- (P _ _ _ _ Hi Hi' E'). f_equal. rewrite app_length. cbn [length]. lia.
    - exfalso. eapply find_point_none; eauto. apply in_app_iff. right. left. auto. }
  apply Forall_app in Hf. split; [tauto|]. split; [|split].
  - intros Hne ->. destruct Hd as [Hd|[[-> _]|(g' & d & E & _)]]; [discriminate|cbn in Hne; auto|destruct g'; discriminate].
  - intros g' ->. destruct Hd as [Hd|[[_ E]|(g'' & d & E & Hd)]].
    + rewrite app_length in Hd. cbn in Hd. destruct g'; [auto|cbn in Hd; lia].
    + destruct g'; discriminate.
    + apply app_inj_tail in E. destruct E as [_ <-]. congruence.
  - symmetry. apply number_trim.
Qed.

(** ** Formatted printing *)
Section Print.
Variable cprintf : list N -> arg -> list N.
Notation prints1 := (prints1 cprintf).
Notation prints := (prints cprintf).

Lemma conversions_ascii : forall b, In b conversions -> 0 < b < 256.
Proof. intros b H. cbn in H. repeat (destruct H as [<-|H]; [lia|]). contradiction. Qed.
Lemma mem_iff : forall l b, mem l b = true <-> In b l.
Proof. intros l b. unfold mem. rewrite existsb_exists. split; [intros (x & H & E); apply N.eqb_eq in E; subst; auto|intros H; exists b; split; auto; apply N.eqb_refl]. Qed.
Lemma mem_not : forall l b, ~ In b l -> mem l b = false.
Proof. intros l b H. destruct (mem l b) eqn:E; auto. apply mem_iff in E. contradiction. Qed.
Lemma integer_conversion : forall c, integer_conv c -> In c conversions.
Proof. intros c H. cbn in H. cbn. intuition. Qed.
Lemma float_conversion : forall c, float_conv c -> In c conversions.
Proof. intros c H. cbn in H. cbn. intuition. Qed.

Lemma cstring_app : forall a b, cstring a -> cstring b -> cstring (a ++ b).
Proof. intros a b [A1 A2] [B1 B2]. split; [apply Forall_app; auto|]. rewrite in_app_iff. tauto. Qed.
Lemma cstring_of : forall s, Forall (fun b => 0 < b < 256) s -> cstring s.
Proof.
  intros s H. split; [eapply Forall_impl; [|eauto]; cbn; intros; lia|]. intros Hin. rewrite Forall_forall in H. specialize (H 0 Hin). lia.
Qed.
Lemma flags_bytes : forall flags c, flags_ok flags -> In c conversions -> Forall (fun b => 0 < b < 256) (37 :: flags ++ [c]).
Proof.
  intros flags c [_ H] Hc. constructor; [lia|]. apply Forall_app. split; [|constructor; [apply conversions_ascii; auto|constructor]].
  eapply Forall_impl; [|eauto]. cbn. tauto.
Qed.
Lemma prints1_cstring : forall n q a t c, prints1 n q a t c -> cstring (render1 q).
Proof.
  intros n q a t c H. apply cstring_of.
  destruct H; cbn [render1]; try (repeat constructor; lia); try (apply flags_bytes; auto using integer_conversion, float_conversion; cbn; tauto).
  eapply Forall_impl; [|eauto]. cbn. tauto.
Qed.
Lemma prints_cstring : forall n ps args t cs, prints n ps args t cs -> cstring (render ps).
Proof.
  induction 1; [split; [constructor|intros []]|]. unfold render. cbn [map concat]. apply cstring_app; auto. eapply prints1_cstring; eauto.
Qed.

Lemma one_byte : forall n ps args t cs, prints n ps args t cs -> forall b r, render ps = b :: r -> b <> 37 ->
  exists ps' t', t = b :: t' /\ render ps' = r /\ prints (n + 1) ps' args t' cs /\ (~ In Char ps -> ~ In Char ps').
Proof.
  induction 1 as [|n p ps a args t ts c cs H1 H IH]; intros b r E Hb; [discriminate|].
  unfold render in E. cbn [map concat] in E.
  destruct p as [s| | | | | |flags cv|flags cv|flags]; try (cbn in E; injection E as <- _; congruence).
  inversion H1; subst. rename t into s. cbn [render1] in E. destruct s as [|x s].
  - cbn [app length] in *. rewrite N.add_0_r in IH. destruct (IH b r E Hb) as (ps' & t' & -> & Hr & Hp & Hc).
    exists ps', t'. repeat split; auto. intros X. apply Hc. intros Y. apply X. right. auto.
  - cbn [app] in E. injection E as <- E. exists (Literal s :: ps), (s ++ ts). split; [auto|]. split; [exact E|]. split.
    + change args with ([] ++ args). change cs with ([] ++ cs). constructor.
      * constructor. match goal with X : Forall _ (_ :: s) |- _ => inversion X; auto end.
      * cbn [length] in H. replace (n + 1 + N.of_nat (length s)) with (n + N.of_nat (S (length s))) by lia. auto.
    + intros X [Y|Y]; [discriminate|]. apply X. right. auto.
Qed.
Lemma many_bytes : forall w n ps args t cs r, prints n ps args t cs -> render ps = w ++ r -> Forall (fun b => b <> 37) w ->
  exists ps' t', t = w ++ t' /\ render ps' = r /\ prints (n + N.of_nat (length w)) ps' args t' cs /\ (~ In Char ps -> ~ In Char ps').
Proof.
  induction w as [|b w IH]; intros n ps args t cs r H E Hw.
  - exists ps, t. cbn. rewrite N.add_0_r. auto.
  - inversion Hw; subst. destruct (one_byte _ _ _ _ _ H b (w ++ r) E) as (ps1 & t1 & -> & E1 & H1 & C1); auto.
    destruct (IH _ _ _ _ _ r H1 E1) as (ps2 & t2 & -> & E2 & H2' & C2); auto.
    exists ps2, t2. split; [auto|]. split; [auto|]. split; [|auto]. cbn [length]. replace (n + N.of_nat (S (length w))) with (n + 1 + N.of_nat (length w)) by lia. auto.
Qed.
Lemma no_bytes : forall n ps args t cs, prints n ps args t cs -> render ps = [] -> t = [] /\ cs = [].
Proof.
  induction 1 as [|n p ps a args t ts c cs H1 H IH]; intros E; auto.
  unfold render in E. cbn [map concat] in E. apply app_eq_nil in E. destruct E as [E1 E2].
  destruct p as [s| | | | | |flags cv|flags cv|flags]; try discriminate. inversion H1; subst. cbn in E1. subst. destruct (IH E2). subst. auto.
Qed.
Definition literal (q : piece) : Prop := exists s, q = Literal s.
Lemma percent_byte : forall n ps args t cs, prints n ps args t cs -> forall r, render ps = 37 :: r ->
  exists q ps' a args' t1 ts c cs', ~ literal q /\ prints1 n q a t1 c /\ prints (n + N.of_nat (length t1)) ps' args' ts cs' /\
    args = a ++ args' /\ t = t1 ++ ts /\ cs = c ++ cs' /\ render ps = render1 q ++ render ps' /\ (~ In Char ps -> q <> Char /\ ~ In Char ps').
Proof.
  induction 1 as [|n p ps a args t ts c cs H1 H IH]; intros r E; [discriminate|].
  assert (D : (exists s, p = Literal s) \/ ~ literal p) by (destruct p; [left; eexists; eauto|right; intros [s X]; discriminate..]).
  destruct D as [[s ->]|D].
  - inversion H1; subst. rename t into s. unfold render in E |- *. cbn [map concat render1] in E |- *. destruct s as [|x s].
    + cbn [app length] in *. rewrite N.add_0_r in IH. destruct (IH r E) as (q & ps' & a & args' & t1 & ts' & c & cs' & G1 & G2 & G3 & G4 & G5 & G6 & G7 & G8).
      exists q, ps', a, args', t1, ts', c, cs'. repeat (split; [assumption|]). intros X. apply G8. intros Y. apply X. right. auto.
    + cbn in E. injection E as -> _. match goal with X : Forall _ (_ :: s) |- _ => inversion X; subst end. lia.
  - exists p, ps, a, args, t, ts, c, cs. repeat (split; [first [assumption|reflexivity]|]).
    intros X. split; [intros ->; apply X; left; auto|intros Y; apply X; right; auto].
Qed.

Lemma strcspn_flags : forall flags c rest, flags_ok flags -> In c conversions -> strcspn (flags ++ c :: rest) = Ok (length flags).
Proof.
  intros flags c rest [_ H] Hc. induction flags as [|b flags IH]; cbn [app strcspn length].
  - rewrite (proj2 (mem_iff conversions c) Hc), orb_true_r. auto.
  - inversion H as [|? ? [Hb [Hn _]] H']; subst. replace (b =? 0) with false by (symmetry; apply N.eqb_neq; lia).
    rewrite (mem_not _ _ Hn). cbn [orb]. rewrite IH by auto. auto.
Qed.
Lemma rd_nth : forall s i b, nth_error s i = Some b -> rd s i = Ok b.
Proof. intros. unfold rd. rewrite H. auto. Qed.
Lemma rd_conv : forall flags c rest, rd (37 :: flags ++ c :: rest) (length flags + 1) = Ok c.
Proof. intros. apply rd_nth. rewrite Nat.add_1_r. cbn. rewrite nth_error_app2, Nat.sub_diag by lia. auto. Qed.
Lemma rd_last : forall f m c rest, rd (37 :: (f ++ [m]) ++ c :: rest) (length (f ++ [m]) + 1 + 1 - 2) = Ok m.
Proof.
  intros. apply rd_nth. rewrite app_length. cbn [length]. replace (length f + 1 + 1 + 1 - 2)%nat with (S (length f)) by lia. cbn.
  rewrite <- app_assoc. rewrite nth_error_app2, Nat.sub_diag by lia. auto.
Qed.
Lemma rd_first_conv : forall c rest, rd (37 :: [] ++ c :: rest) (length (@nil N) + 1 + 1 - 2) = Ok 37.
Proof. auto. Qed.
Lemma copy_flags : forall flags c rest, flags_ok flags -> copy_format (37 :: flags ++ c :: rest) (length flags + 1 + 1) = Ok (37 :: flags ++ [c]).
Proof.
  intros flags c rest [H _]. unfold copy_format. replace (length flags + 1 + 1 <? 8)%nat with true by (symmetry; apply Nat.ltb_lt; lia). f_equal.
  replace (37 :: flags ++ c :: rest) with ((37 :: flags ++ [c]) ++ rest) by (cbn; rewrite <- app_assoc; auto).
  replace (length flags + 1 + 1)%nat with (length (37 :: flags ++ [c])) by (cbn; rewrite app_length; cbn; lia).
  rewrite firstn_app, Nat.sub_diag, firstn_all. cbn [firstn]. apply app_nil_r.
Qed.
Lemma no_star : forall flags c, flags_ok flags -> In c conversions -> mem (37 :: flags ++ [c]) 42 = false.
Proof.
  intros flags c [_ H] Hc. apply mem_not. intros [X|X]; [discriminate|]. apply in_app_iff in X. destruct X as [X|[X|[]]].
  - rewrite Forall_forall in H. destruct (H _ X) as (_ & _ & Y). congruence.
  - subst. cbn in Hc. repeat (destruct Hc as [Hc|Hc]; [discriminate|]). contradiction.
Qed.
Lemma last_case : forall flags : list N, flags = [] \/ exists f m, flags = f ++ [m].
Proof. intros flags. destruct flags using rev_ind; eauto. Qed.
Lemma integer_size_long : forall flags c rest, is_long flags -> integer_size (37 :: flags ++ c :: rest) (length flags + 1 + 1) = Ok 8.
Proof.
  intros flags c rest (f & m & -> & Hm). unfold integer_size. rewrite rd_last.
  replace (length (f ++ [m]) + 1 + 1 <=? 2)%nat with false by (symmetry; apply Nat.leb_gt; rewrite app_length; cbn; lia).
  assert (X : exists m2, rd (37 :: (f ++ [m]) ++ c :: rest) (length (f ++ [m]) + 1 + 1 - 3) = Ok m2).
  { unfold rd. destruct (nth_error (37 :: (f ++ [m]) ++ c :: rest) (length (f ++ [m]) + 1 + 1 - 3)) eqn:E; [eauto|].
    apply nth_error_None in E. cbn [length] in E. rewrite !app_length in E. cbn [length] in E. lia. }
  destruct X as [m2 ->]. cbn [obind]. cbn in Hm. destruct Hm as [<-|[<-|[<-|[<-|[]]]]]; auto.
Qed.
Lemma integer_size_int : forall flags c rest, ~ is_long flags -> flags_ok flags ->
  exists k, integer_size (37 :: flags ++ c :: rest) (length flags + 1 + 1) = Ok k /\ (k =? 8) = false.
Proof.
  intros flags c rest Hl Hok. destruct (last_case flags) as [->|(f & m & ->)]; [exists 4; auto|].
  unfold integer_size. rewrite rd_last.
  replace (length (f ++ [m]) + 1 + 1 <=? 2)%nat with false by (symmetry; apply Nat.leb_gt; rewrite app_length; cbn; lia).
  assert (X : exists m2, rd (37 :: (f ++ [m]) ++ c :: rest) (length (f ++ [m]) + 1 + 1 - 3) = Ok m2).
  { unfold rd. destruct (nth_error (37 :: (f ++ [m]) ++ c :: rest) (length (f ++ [m]) + 1 + 1 - 3)) eqn:E; [eauto|].
    apply nth_error_None in E. cbn [length] in E. rewrite !app_length in E. cbn [length] in E. lia. }
  destruct X as [m2 ->]. cbn [obind].
  assert (P : m <> 112).
  { destruct Hok as [_ H]. apply Forall_app in H. destruct H as [_ H]. inversion H as [|? ? (_ & Y & _) _]; subst. intros ->. apply Y. cbn. tauto. }
  assert (Q : ~ In m [108; 106; 122; 116]) by (intros Y; apply Hl; exists f, m; auto).
  cbn in Q.
  destruct (N.eqb_spec m 108); [exfalso; apply Q; subst; tauto|]. destruct (N.eqb_spec m 104).
  { destruct (m2 =? 104); eexists; split; reflexivity. }
  destruct (N.eqb_spec m 112); [congruence|]. destruct (N.eqb_spec m 106); [exfalso; apply Q; subst; tauto|]. destruct (N.eqb_spec m 122); [exfalso; apply Q; subst; tauto|]. destruct (N.eqb_spec m 116); [exfalso; apply Q; subst; tauto|].
  exists 4. auto.
Qed.
Lemma long_double_spec : forall flags c rest,
  exists b, long_double (37 :: flags ++ c :: rest) (length flags + 1 + 1) = Ok b /\ (b = true <-> ends_with flags 76).
Proof.
  intros flags c rest. unfold long_double. destruct (last_case flags) as [->|(f & m & ->)].
  - exists false. split; auto. split; [discriminate|]. intros [f H]. destruct f; discriminate.
  - rewrite rd_last. cbn [obind]. exists (m =? 76). split; auto. rewrite N.eqb_eq. split; [intros ->; exists f; auto|].
    intros [f' H]. apply app_inj_tail in H. tauto.
Qed.
Lemma until_nul_all : forall s, ~ In 0 s -> until_nul s = s.
Proof.
  induction s as [|b s IH]; intros H; auto. cbn in H. cbn. destruct (N.eqb_spec b 0); [tauto|]. f_equal. apply IH. tauto.
Qed.
Lemma unformatted_spec : forall flags c,
  unformatted (37 :: flags ++ [c]) (length flags + 1 + 1) =
  Ok (if (list_eq_dec N.eq_dec (flags ++ [c]) [102]) then true else if (list_eq_dec N.eq_dec (flags ++ [c]) [108; 102]) then true else false).
Proof.
  intros flags c. unfold unformatted. replace (length flags + 1 + 1 - 1)%nat with (length flags + 1)%nat by lia. rewrite rd_conv. cbn [obind].
  destruct (last_case flags) as [->|(f & m & ->)].
  - cbn [app length]. change (rd [37; c] (0 + 1 + 1 - 2)) with (Ok 37). cbn [obind]. f_equal. cbn [Nat.add Nat.eqb orb]. rewrite andb_true_r.
    destruct (list_eq_dec N.eq_dec [c] [102]) as [E|E]; [injection E as ->; auto|].
    destruct (list_eq_dec N.eq_dec [c] [108; 102]) as [E'|E']; [discriminate|]. apply N.eqb_neq. congruence.
  - rewrite rd_last. cbn [obind]. f_equal. rewrite app_length. cbn [length].
    replace (length f + 1 + 1 + 1 =? 2)%nat with false by (symmetry; apply Nat.eqb_neq; lia). cbn [orb].
    destruct (list_eq_dec N.eq_dec ((f ++ [m]) ++ [c]) [102]) as [E|E]; [apply (f_equal (@length N)) in E; rewrite !app_length in E; cbn in E; lia|].
    destruct (list_eq_dec N.eq_dec ((f ++ [m]) ++ [c]) [108; 102]) as [E'|E'].
    + destruct f as [|x f]; [|apply (f_equal (@length N)) in E'; cbn in E'; rewrite !app_length in E'; cbn in E'; lia]. cbn in E'. injection E' as -> ->. auto.
    + destruct (c =? 102) eqn:Ec; auto. apply N.eqb_eq in Ec. subst c. destruct f as [|x f].
      * cbn [length Nat.add Nat.eqb andb]. apply N.eqb_neq. intros ->. apply E'. auto.
      * replace (length (x :: f) + 1 + 1 + 1 =? 3)%nat with false by (symmetry; apply Nat.eqb_neq; cbn; lia). auto.
Qed.

(** What one conversion does. *)
Definition converts (n : N) (q : piece) (a : list arg) (t : list N) (c : list N) : Prop :=
  forall rest args p, exists k ch seq' p', strcspn (skipn 1 (render1 q ++ rest)) = Ok k /\ rd (render1 q ++ rest) (k + 1) = Ok ch /\
    length (render1 q) = (k + 1 + 1)%nat /\
    convert cprintf (render1 q ++ rest) (k + 1) ch (a ++ args) p = Ok (seq', args, p') /\ text p' ++ seq' = text p ++ t /\
    (q <> Char -> count p = n -> count p' + N.of_nat (length seq') = n + N.of_nat (length t) /\ counters p' = counters p ++ c).

Lemma converts_flags : forall n q a t c flags cv, render1 q = 37 :: flags ++ [cv] -> flags_ok flags -> In cv conversions ->
  (forall rest args p, exists seq' p',
     convert cprintf (37 :: flags ++ cv :: rest) (length flags + 1) cv (a ++ args) p = Ok (seq', args, p') /\ text p' ++ seq' = text p ++ t /\
     (q <> Char -> count p = n -> count p' + N.of_nat (length seq') = n + N.of_nat (length t) /\ counters p' = counters p ++ c)) ->
  converts n q a t c.
Proof.
  intros n q a t c flags cv E Hf Hc H rest args p. destruct (H rest args p) as (seq' & p' & H1 & H2 & H3).
  exists (length flags), cv, seq', p'. rewrite E. replace ((37 :: flags ++ [cv]) ++ rest) with (37 :: flags ++ cv :: rest) by (cbn; rewrite <- app_assoc; auto).
  split; [cbn [skipn]; apply strcspn_flags; auto|]. split; [apply rd_conv|]. split; [cbn; rewrite app_length; cbn; lia|]. auto.
Qed.
Lemma flags_nil : flags_ok [].
Proof. split; [cbn; lia|constructor]. Qed.
Lemma put_ok : forall p t n, text (put p t) ++ [] = text p ++ t /\
  (count p = n -> count (put p t) + N.of_nat (length (@nil N)) = n + N.of_nat (length t) /\ counters (put p t) = counters p ++ []).
Proof. intros p t n. unfold put. cbn [text count counters]. rewrite !app_nil_r. split; auto. intros <-. cbn [length]. split; [lia|auto]. Qed.
Ltac put_done := let p := fresh in let H := fresh in match goal with |- exists seq' p', Ok ([], ?a, put ?p ?t) = _ /\ _ => exists [], (put p t) end;
  split; [reflexivity|]; match goal with |- text (put ?p ?t) ++ [] = _ /\ (_ -> count _ = ?n -> _) => destruct (put_ok p t n); auto end.

Lemma eqb_no : forall a b : N, a <> b -> (a =? b) = false. Proof. apply N.eqb_neq. Qed.

Lemma convert_ok : forall n q a t c, prints1 n q a t c -> ~ literal q -> converts n q a t c.
Proof.
  intros n q a t c H Hlit.
  destruct H as [s Hs| |s Hs| |d|z Hz| |flags cv z Hf Hc Hl Ht|flags cv z Hf Hc Hl Ht|flags cv d t Hf Hc Hl Ht Htr|flags cv d Hf Hc Hl Ht|flags s Hf Hne Hl Hn].
  - exfalso. apply Hlit. exists s. auto.
  - eapply converts_flags with (flags := []) (cv := 37); [reflexivity|exact flags_nil|cbn; tauto|]. intros rest args p. exists [37], p. split; [reflexivity|]. split; auto.
    intros _ <-. rewrite app_nil_r. auto.
  - eapply converts_flags with (flags := []) (cv := 115); [reflexivity|exact flags_nil|cbn; tauto|]. intros rest args p.
    change (convert cprintf (37 :: [] ++ 115 :: rest) (length (@nil N) + 1) 115 ([AStr (Some s)] ++ args) p) with (Ok (A := list N * list arg * printed) ([], args, put p (until_nul s))).
    rewrite until_nul_all by auto. put_done.
  - eapply converts_flags with (flags := []) (cv := 115); [reflexivity|exact flags_nil|cbn; tauto|]. intros rest args p.
    change (convert cprintf (37 :: [] ++ 115 :: rest) (length (@nil N) + 1) 115 ([AStr None] ++ args) p) with (Ok (A := list N * list arg * printed) ([], args, put p null_text)).
    put_done.
  - eapply converts_flags with (flags := []) (cv := 64); [reflexivity|exact flags_nil|cbn; tauto|]. intros rest args p.
    change (convert cprintf (37 :: [] ++ 64 :: rest) (length (@nil N) + 1) 64 ([AObj d] ++ args) p) with (Ok (A := list N * list arg * printed) ([], args, put p d)).
    put_done.
  - eapply converts_flags with (flags := []) (cv := 99); [reflexivity|exact flags_nil|cbn; tauto|]. intros rest args p. eexists [], _. split; [reflexivity|]. cbn [text].
    rewrite Z.mod_small by lia. rewrite app_nil_r. split; auto. congruence.
  - eapply converts_flags with (flags := []) (cv := 110); [reflexivity|exact flags_nil|cbn; tauto|]. intros rest args p.
    exists [], (mkP (text p) (count p) (counters p ++ [count p mod 2^32])). split; [reflexivity|]. cbn [text count counters length]. split; auto.
    intros _ <-. auto.
  - eapply converts_flags with (flags := flags) (cv := cv); [reflexivity|exact Hf|apply integer_conversion; auto|]. intros rest args p.
    destruct (integer_size_int flags cv rest Hl Hf) as (k & Hk & Hk8).
    unfold convert. rewrite copy_flags, Hk by auto.
    rewrite (proj2 (mem_iff [100; 105; 117; 111; 120; 88; 112] cv)) by (cbn in Hc |- *; tauto).
    assert (X : cv <> 37 /\ cv <> 115 /\ cv <> 64 /\ cv <> 99) by (cbn in Hc; intuition lia). destruct X as (X1 & X2 & X3 & X4).
    rewrite (eqb_no cv 37), (eqb_no cv 115), (eqb_no cv 64), (eqb_no cv 99) by auto. cbn [obind app]. rewrite Hk8.
    unfold sprintf_tmp. rewrite no_star by (auto; apply integer_conversion; auto). rewrite (proj2 (Nat.ltb_lt _ _) Ht). cbn [obind].
    put_done.
  - eapply converts_flags with (flags := flags) (cv := cv); [reflexivity|exact Hf|apply integer_conversion; auto|]. intros rest args p.
    unfold convert. rewrite copy_flags, integer_size_long by auto.
    rewrite (proj2 (mem_iff [100; 105; 117; 111; 120; 88; 112] cv)) by (cbn in Hc |- *; tauto).
    assert (X : cv <> 37 /\ cv <> 115 /\ cv <> 64 /\ cv <> 99) by (cbn in Hc; intuition lia). destruct X as (X1 & X2 & X3 & X4).
    rewrite (eqb_no cv 37), (eqb_no cv 115), (eqb_no cv 64), (eqb_no cv 99) by auto. cbn [obind app N.eqb Pos.eqb].
    unfold sprintf_tmp. rewrite no_star by (auto; apply integer_conversion; auto). rewrite (proj2 (Nat.ltb_lt _ _) Ht). cbn [obind].
    put_done.
  - eapply converts_flags with (flags := flags) (cv := cv); [reflexivity|exact Hf|apply float_conversion; auto|]. intros rest args p.
    destruct (long_double_spec flags cv rest) as (b & Hb & Hb').
    unfold convert. rewrite copy_flags, Hb by auto.
    rewrite (mem_not [100; 105; 117; 111; 120; 88; 112] cv) by (cbn in Hc |- *; intuition lia).
    rewrite (proj2 (mem_iff [102; 70; 103; 71; 101; 69; 97; 65] cv)) by (cbn in Hc |- *; tauto).
    assert (X : cv <> 37 /\ cv <> 115 /\ cv <> 64 /\ cv <> 99) by (cbn in Hc; intuition lia). destruct X as (X1 & X2 & X3 & X4).
    rewrite (eqb_no cv 37), (eqb_no cv 115), (eqb_no cv 64), (eqb_no cv 99) by auto. cbn [obind app].
    replace b with false by (symmetry; apply not_true_is_false; tauto). cbn [obind fst snd].
    unfold sprintf_tmp. rewrite no_star by (auto; apply float_conversion; auto). rewrite (proj2 (Nat.ltb_lt _ _) Ht). cbn [obind].
    rewrite unformatted_spec. cbn [obind].
    replace (if (if list_eq_dec N.eq_dec (flags ++ [cv]) [102] then true else if list_eq_dec N.eq_dec (flags ++ [cv]) [108; 102] then true else false)
             then trim_zeroes (cprintf (37 :: flags ++ [cv]) (ADouble d)) else cprintf (37 :: flags ++ [cv]) (ADouble d)) with t; [put_done|].
    destruct (list_eq_dec N.eq_dec (flags ++ [cv]) [102]); [eapply trimmed_unique; eauto using trim_zeroes_spec|].
    destruct (list_eq_dec N.eq_dec (flags ++ [cv]) [108; 102]); [eapply trimmed_unique; eauto using trim_zeroes_spec|]. auto.
  - eapply converts_flags with (flags := flags) (cv := cv); [reflexivity|exact Hf|apply float_conversion; auto|]. intros rest args p.
    destruct (long_double_spec flags cv rest) as (b & Hb & Hb').
    unfold convert. rewrite copy_flags, Hb by auto.
    rewrite (mem_not [100; 105; 117; 111; 120; 88; 112] cv) by (cbn in Hc |- *; intuition lia).
    rewrite (proj2 (mem_iff [102; 70; 103; 71; 101; 69; 97; 65] cv)) by (cbn in Hc |- *; tauto).
    assert (X : cv <> 37 /\ cv <> 115 /\ cv <> 64 /\ cv <> 99) by (cbn in Hc; intuition lia). destruct X as (X1 & X2 & X3 & X4).
    rewrite (eqb_no cv 37), (eqb_no cv 115), (eqb_no cv 64), (eqb_no cv 99) by auto. cbn [obind app].
    replace b with true by (symmetry; tauto). cbn [obind fst snd].
    unfold sprintf_tmp. rewrite no_star by (auto; apply float_conversion; auto). rewrite (proj2 (Nat.ltb_lt _ _) Ht). cbn [obind].
    rewrite unformatted_spec. cbn [obind]. destruct Hl as [f ->].
    destruct (list_eq_dec N.eq_dec ((f ++ [76]) ++ [cv]) [102]) as [E|_]; [apply (f_equal (@length N)) in E; rewrite !app_length in E; cbn in E; lia|].
    destruct (list_eq_dec N.eq_dec ((f ++ [76]) ++ [cv]) [108; 102]) as [E|_].
    { change [108; 102] with ([108] ++ [102]) in E. apply app_inj_tail in E. destruct E as [E _]. change [108] with ([] ++ [108]) in E. apply app_inj_tail in E. destruct E as [_ E]. discriminate. }
    put_done.
  - eapply converts_flags with (flags := flags) (cv := 115); [reflexivity|exact Hf|cbn; tauto|]. intros rest args p.
    destruct (last_case flags) as [->|(f & m & ->)]; [congruence|].
    unfold convert. rewrite copy_flags by auto. cbn [N.eqb Pos.eqb app].
    replace (length (f ++ [m]) + 1 - 1)%nat with (length (f ++ [m]) + 1 + 1 - 2)%nat by lia. rewrite rd_last. cbn [obind].
    rewrite (eqb_no m 108) by (intros ->; apply Hl; exists f; auto).
    replace (1 <? length (f ++ [m]) + 1)%nat with true by (symmetry; apply Nat.ltb_lt; rewrite app_length; cbn; lia). cbn [obind].
    unfold snprintf_buf. rewrite no_star by (auto; cbn; tauto). cbn [obind]. rewrite until_nul_all by auto.
    put_done.
Qed.

Lemma utf8_trail : forall c, char_ok c -> Forall (fun b => b <> 37) (tl (utf8 c)).
Proof.
  intros c [[Hs _] _]. unfold utf8. assert (X : forall z : N, 128 + z <> 37) by (intros; lia).
  destruct (c <? 0x80); [apply Forall_nil|]. destruct (c <? 0x800); [|destruct (c <? 0x10000)]; cbn [tl]; repeat (apply Forall_cons; [apply X|]); apply Forall_nil.
Qed.
Lemma scan_char : forall b s, cstring (b :: s) -> b <> 37 ->
  exists z n, ustrscan ((b :: s) ++ [0]) = Ok (z, n) /\ (1 <= n <= length (b :: s))%nat /\ ((1 < n)%nat \/ z <> 37%Z) /\ Forall (fun b => b <> 37) (firstn n (b :: s)).
Proof.
  intros b s Hc Hb. destruct (next_char (b :: s) Hc) as (z & n & E & Hn & H); [discriminate|].
  exists z, n. rewrite ustrscan_next by (auto; discriminate). split; [apply E|]. split; [exact Hn|].
  destruct n as [|n]; [lia|]. cbn [firstn]. destruct H as [[-> H]|(c & Hc' & -> & H)].
  - split; [right; lia|]. constructor; auto. cbn [skipn] in H. replace (S n - 1)%nat with n in H by lia.
    eapply Forall_impl; [|exact H]. unfold trail_byte. intros; lia.
  - cbn [firstn] in H. pose proof (utf8_trail c Hc') as T. rewrite <- H in T. cbn [tl] in T. split; [|constructor; auto].
    destruct n; [|left; lia]. right. cbn in H. intros X. apply Hb. 
    assert (c = 37) by lia. subst c. cbn in H. congruence.
Qed.
Lemma skipn_app_len : forall A (a b : list A), skipn (length a) (a ++ b) = b.
Proof. intros. rewrite skipn_app, Nat.sub_diag, skipn_all. auto. Qed.

Lemma print_loop_ok : forall k n ps args t cs, (length (render ps) <= k)%nat -> prints n ps args t cs -> forall fuel seq p, (length (render ps) < fuel)%nat ->
  exists p', print_loop cprintf fuel seq (render ps ++ [0]) args p = Ok p' /\ text p' = text p ++ seq ++ t /\
    (~ In Char ps -> count p + N.of_nat (length seq) = n -> count p' = n + N.of_nat (length t) /\ counters p' = counters p ++ cs).
Proof.
  induction k as [k IH] using lt_wf_ind. intros n ps args t cs Hk H fuel seq p Hf.
  destruct fuel as [|fuel]; [lia|]. cbn [print_loop].
  destruct (render ps) as [|b r] eqn:E.
  - destruct (no_bytes _ _ _ _ _ H E) as [-> ->]. cbn [app]. change (ustrscan [0]) with (Ok (A := Z * nat) (0%Z, 0%nat)). cbn [obind Nat.eqb].
    exists (put p seq). split; auto. unfold put. cbn [text count counters length]. rewrite !app_nil_r. split; auto. intros _ <-. split; [lia|auto].
  - pose proof (prints_cstring _ _ _ _ _ H) as Hc. rewrite E in Hc.
    destruct (N.eq_dec b 37) as [->|Hb].
    + destruct (percent_byte _ _ _ _ _ H r E) as (q & ps' & a & args' & t1 & ts & c & cs' & G1 & G2 & G3 & -> & -> & -> & G7 & G8).
      change (ustrscan ((37 :: r) ++ [0])) with (Ok (A := Z * nat) (37%Z, 1%nat)). cbn [obind Nat.eqb Nat.ltb Nat.leb orb Z.eqb Pos.eqb negb].
      rewrite E in G7. rewrite G7. rewrite <- app_assoc.
      destruct (convert_ok _ _ _ _ _ G2 G1 (render ps' ++ [0]) args' (put p seq)) as (j & ch & seq' & p' & C1 & C2 & C3 & C4 & C5 & C6).
      rewrite C1. cbn [obind]. rewrite C2. cbn [obind]. rewrite C4. cbn [obind]. rewrite <- C3, skipn_app_len.
      assert (L : (length (render ps') + 2 <= length (37%N :: r))%nat) by (rewrite G7, app_length, C3; lia).
      destruct (IH (length (render ps')) ltac:(lia) _ ps' args' ts cs' (le_n _) G3 fuel seq' p' ltac:(lia)) as (p'' & I1 & I2 & I3).
      exists p''. split; auto. split.
      { rewrite I2. rewrite app_assoc, C5. cbn [put text]. rewrite <- !app_assoc. auto. }
      intros X1 X2. destruct (G8 X1) as [Y1 Y2]. destruct (C6 Y1) as [Z1 Z2]; [cbn; auto|].
      destruct (I3 Y2) as [W1 W2]; [auto|]. rewrite W1, W2, Z2. cbn [put counters]. rewrite app_length, Nat2N.inj_add, <- app_assoc. split; [lia|auto].
    + destruct (scan_char b r Hc Hb) as (z & m & S1 & S2 & S3 & S4). rewrite S1. cbn [obind].
      replace (m =? 0)%nat with false by (symmetry; apply Nat.eqb_neq; lia).
      replace ((1 <? m)%nat || negb (z =? 37)%Z) with true.
      2:{ symmetry. destruct S3 as [S3|S3]; [apply Nat.ltb_lt in S3; rewrite S3; auto|]. apply Z.eqb_neq in S3. rewrite S3, orb_true_r. auto. }
      rewrite skipn_term by lia. rewrite firstn_app. replace (m - length (b :: r))%nat with 0%nat by lia. rewrite firstn_O, app_nil_r.
      destruct (many_bytes (firstn m (b :: r)) n ps args t cs (skipn m (b :: r)) H) as (ps' & t' & -> & E' & H' & C'); [rewrite firstn_skipn; auto|auto|].
      assert (L : (length (render ps') < length (b :: r))%nat) by (rewrite E', skipn_length; lia).
      rewrite <- E'.
      destruct (IH (length (render ps')) ltac:(lia) _ ps' args t' cs (le_n _) H' fuel (seq ++ firstn m (b :: r)) p ltac:(lia)) as (p' & I1 & I2 & I3).
      exists p'. split; auto. split; [rewrite I2, <- !app_assoc; auto|].
      intros X1 X2. destruct (I3 (C' X1)) as [W1 W2]; [rewrite app_length; lia|]. split; [rewrite W1, app_length; lia|auto].
Qed.

Theorem print_text : forall ps args t cs, prints 0 ps args t cs -> exists cs' r, vsprintf cprintf (render ps) args = Ok (t, cs', r).
Proof.
  intros ps args t cs H. unfold vsprintf.
  destruct (print_loop_ok _ 0 ps args t cs (le_n _) H (S (length (render ps ++ [0]))) [] (mkP [] 0 [])) as (p' & E & T & _); [rewrite app_length; lia|].
  rewrite E. cbn [obind]. rewrite T. cbn [text app]. eauto.
Qed.
Theorem print_count : forall ps args t cs, prints 0 ps args t cs -> ~ In Char ps -> N.of_nat (length t) < 2^31 ->
  vsprintf cprintf (render ps) args = Ok (t, cs, Z.of_nat (length t)).
Proof.
  intros ps args t cs H Hc Hl. unfold vsprintf.
  destruct (print_loop_ok _ 0 ps args t cs (le_n _) H (S (length (render ps ++ [0]))) [] (mkP [] 0 [])) as (p' & E & T & C); [rewrite app_length; lia|].
  rewrite E. cbn [obind]. destruct (C Hc) as [C1 C2]; [auto|]. rewrite T, C1, C2. cbn [text counters app]. do 2 f_equal.
  unfold to_int. rewrite N.add_0_l, N.mod_small by lia. replace (Z.of_N (N.of_nat (length t)) <? 2^31)%Z with true by (symmetry; apply Z.ltb_lt; lia). lia.
Qed.
End Print.

(** ** Lines and characters *)
Lemma gets_line : forall l r, line_ok l -> gets (l ++ 10 :: r) = (l, r).
Proof.
  induction l as [|b l IH]; intros r [H1 H2]; auto. cbn in H1, H2. cbn [app gets].
  replace (b =? 10) with false by (symmetry; apply N.eqb_neq; intros ->; tauto). rewrite IH by (split; tauto).
  replace (b =? 0) with false by (symmetry; apply N.eqb_neq; intros ->; tauto). auto.
Qed.
Lemma gets_last : forall l, line_ok l -> gets l = (l, []).
Proof.
  induction l as [|b l IH]; intros [H1 H2]; auto. cbn in H1, H2. cbn [gets].
  replace (b =? 10) with false by (symmetry; apply N.eqb_neq; intros ->; tauto). rewrite IH by (split; tauto).
  replace (b =? 0) with false by (symmetry; apply N.eqb_neq; intros ->; tauto). auto.
Qed.
Theorem lines_round_trip : forall ls r, Forall line_ok ls -> read_lines (length ls) (line_stream ls ++ r) = (ls, r).
Proof.
  induction ls as [|l ls IH]; intros r H; auto. inversion H; subst. unfold line_stream. cbn [map concat length read_lines].
  rewrite <- !app_assoc. cbn [app]. rewrite gets_line by auto. fold (line_stream ls). rewrite IH by auto. auto.
Qed.
Theorem last_line : forall ls l, Forall line_ok ls -> line_ok l -> read_lines (S (length ls)) (line_stream ls ++ l) = (ls ++ [l], []).
Proof.
  induction ls as [|l0 ls IH]; intros l H Hl.
  - cbn [length read_lines line_stream map concat app]. rewrite gets_last by auto. auto.
  - inversion H; subst. unfold line_stream. cbn [map concat length]. remember (S (length ls)) as k. cbn [read_lines].
    rewrite <- !app_assoc. cbn [app]. rewrite gets_line by auto. fold (line_stream ls). subst k. rewrite IH by auto. auto.
Qed.
Theorem gets_consumes : forall s, exists l, fst (gets s) = filter (fun b => negb (b =? 0)) l /\ ~ In 10 l /\
  (s = l ++ 10 :: snd (gets s) \/ (s = l /\ snd (gets s) = [])).
Proof.
  induction s as [|b s (l & H1 & H2 & H3)]; [exists []; repeat split; auto|]. cbn [gets]. destruct (N.eqb_spec b 10) as [->|Hb].
  - exists []. repeat split; auto.
  - destruct (gets s) as [l' r]. cbn [fst snd] in *. exists (b :: l). split; [|split].
    + cbn [filter]. destruct (b =? 0); cbn [negb]; [auto|f_equal; auto].
    + intros [->|X]; auto.
    + destruct H3 as [->|[-> ->]]; auto.
Qed.
Theorem char_round_trip : forall ch r, (0 <= ch < 128)%Z -> getc (putc ch ++ r) = (ch, r).
Proof.
  intros ch r H. unfold putc, getc. cbn [app]. rewrite Z.mod_small by lia. unfold schar. replace (Z.to_N ch <? 128) with true by (symmetry; apply N.ltb_lt; lia).
  f_equal. lia.
Qed.
