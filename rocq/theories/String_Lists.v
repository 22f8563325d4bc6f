(** Splitting and joining, trimming, filtering and wrapping. *)
Require Import Coq.ZArith.ZArith Coq.NArith.NArith Coq.Lists.List Coq.Bool.Bool Coq.Arith.Arith Coq.micromega.Lia.
Require Import Coq.micromega.ZifyN Coq.micromega.ZifyNat.
Require Import Verif.Base Verif.Array_Model Verif.Utf8_Model Verif.Utf8_Spec Verif.Utf8_Proofs Verif.Utf8_Strings Verif.String_Model Verif.String_Spec Verif.String_Proofs.
Import ListNotations.
Local Open Scope N_scope.

(** ** Splitting and joining (C30) *)
Inductive split_into (sep : list N) : list N -> list (list N) -> Prop :=
| sp_end : split_into sep [] []
| sp_last : forall cs, cs <> [] -> absent sep cs -> split_into sep cs [cs]
| sp_stop : forall post, split_into sep (sep ++ post) [sep ++ post]
| sp_piece : forall pre post l, pre <> [] -> first_from sep (pre ++ sep ++ post) 0 (length pre) ->
    split_into sep post l -> split_into sep (pre ++ sep ++ post) (pre :: l).

Lemma split_loop_ok : forall sep fuel cs r r', text sep -> sep <> [] -> text cs -> (length cs < fuel)%nat ->
  exists l, split_loop fuel (encode cs ++ 0 :: r) (encode sep ++ 0 :: r') (length (encode sep)) = Ok (map encode l) /\ split_into sep cs l.
Proof.
  intros sep. induction fuel as [|fuel IH]; intros cs r r' Hs Hn Hc Hf; [lia|]. cbn [split_loop].
  destruct (search_wellformed cs sep r r' Hc Hs Hn) as [_ (o & -> & Ho)]. cbn [obind].
  assert (Hrest : forall X : list (list N), (o = None -> absent sep cs) -> (o <> None -> occurs_at sep cs 0) ->
    exists l, (do c <- rd (encode cs ++ 0 :: r) 0; if c =? 0 then Ok [] else do n <- strlen (encode cs ++ 0 :: r); Ok [firstn n (encode cs ++ 0 :: r)]) = Ok (map encode l) /\ split_into sep cs l).
  { intros _ H1 H2. destruct cs as [|c cs].
    - exists []. split; auto. constructor.
    - assert (Hcn : c :: cs <> []) by congruence. pose proof (encode_cstring _ Hc) as He.
      destruct (rd_first _ r He (encode_nonempty _ Hcn)) as (b & -> & Hb). cbn [obind]. rewrite Hb. rewrite strlen_ok by apply He. cbn [obind].
      rewrite firstn_app, Nat.sub_diag, firstn_all, app_nil_r. exists [c :: cs]. split; auto.
      destruct o as [k|].
      + destruct (H2 ltac:(discriminate)) as (pre & post & H2' & Hl). destruct pre; [|discriminate]. cbn [app] in H2'. rewrite H2'. apply sp_stop.
      + apply sp_last; auto. }
  destruct o as [[|k]|].
  - apply (Hrest []); [discriminate|]. intros _. destruct Ho as (loc & E & A & _).
    destruct loc; auto. exfalso. pose proof (encode_length (firstn (S loc) cs)) as Hl. rewrite <- E, firstn_length in Hl.
    pose proof (occurs_bound _ _ _ A). lia.
  - destruct Ho as (loc & E & (pre & post & H & Hl) & C). subst loc. subst cs.
    rewrite firstn_app, Nat.sub_diag, firstn_all, app_nil_r in E. rewrite E.
    replace (encode (pre ++ sep ++ post) ++ 0 :: r) with ((encode pre ++ encode sep) ++ (encode post ++ 0 :: r)) by (rewrite !encode_app, <- !app_assoc; auto).
    rewrite <- app_length, skipn_len_app.
    apply text_app in Hc. destruct Hc as [C1 C2]. apply text_app in C2. destruct C2 as [C2 C3].
    assert (1 <= length sep)%nat by (destruct sep; [congruence|cbn; lia]).
    destruct (IH post r r' Hs Hn C3) as (l & -> & Hsp); [rewrite !app_length in Hf; lia|]. cbn [obind].
    rewrite <- !app_assoc, firstn_app, Nat.sub_diag, firstn_all, app_nil_r.
    exists (pre :: l). split; auto. apply sp_piece; auto.
    + intros ->. cbn in E. lia.
    + split; [lia|]. split; [exists pre, post; auto|]. intros j Hj. apply C. lia.
  - apply (Hrest []); [auto|congruence].
Qed.
Lemma split_ok : forall cs sep, text cs -> text sep -> sep <> [] ->
  exists l, split (encode cs) (encode sep) = Ok (map encode l) /\ split_into sep cs l.
Proof.
  intros cs sep Hc Hs Hn. unfold split. rewrite !sto_term. rewrite strlen_ok by (apply encode_cstring; auto). cbn [obind].
  assert (Q : forall k1 k2 p sp n a b, split_loop k1 p sp n = Ok a -> split_loop k2 p sp n = Ok b -> a = b).
  { induction k1 as [|k1 IH]; intros k2 p sp n a b A B; [discriminate|]. destruct k2 as [|k2]; [discriminate|]. cbn [split_loop] in A, B.
    destruct (ustrstr p sp) as [[[|k]|]| | |]; cbn [obind] in A, B; try congruence.
    destruct (split_loop k1 (skipn (S k + n) p) sp n) eqn:E1; cbn [obind] in A; try congruence.
    destruct (split_loop k2 (skipn (S k + n) p) sp n) eqn:E2; cbn [obind] in B; try congruence.
    rewrite (IH _ _ _ _ _ _ E1 E2) in A. congruence. }
  apply split_loop_ok; auto. pose proof (encode_length cs). lia.
Qed.
Lemma combine_loop_join : forall l sep acc, combine_loop l sep acc = acc ++ join sep l.
Proof.
  induction l as [|x l IH]; intros sep acc; [cbn; rewrite app_nil_r; auto|]. destruct l as [|y l]; auto.
  change (combine_loop (x :: y :: l) sep acc) with (combine_loop (y :: l) sep ((acc ++ x) ++ sep)). rewrite IH.
  change (join sep (x :: y :: l)) with (x ++ sep ++ join sep (y :: l)). rewrite <- !app_assoc. auto.
Qed.
Lemma combine_join : forall l sep, combine l sep = join sep l.
Proof. intros. unfold combine. rewrite combine_loop_join. auto. Qed.
Lemma encode_join : forall sep l, encode (join sep l) = join (encode sep) (map encode l).
Proof.
  induction l as [|x [|y l] IH]; auto. change (join sep (x :: y :: l)) with (x ++ sep ++ join sep (y :: l)).
  rewrite !encode_app, IH. auto.
Qed.
Lemma join_cons : forall sep x l, l <> [] -> join sep (x :: l) = x ++ sep ++ join sep l.
Proof. intros sep x [|y l] H; [congruence|auto]. Qed.
Lemma text_join : forall sep l, text sep -> Forall text l -> text (join sep l).
Proof.
  induction l as [|x [|y l] IH]; intros Hs H; inversion H; subst; auto; [constructor|].
  rewrite join_cons by congruence. apply text_app; split; auto. apply text_app; split; auto.
Qed.
Lemma occurs_trunc : forall p a b i, occurs_at p (a ++ b) i -> (i + length p <= length a)%nat -> occurs_at p a i.
Proof.
  intros p a b i (pre & post & H & <-) Hl. exists pre, (skipn (length p + length pre) a). split; auto.
  rewrite <- (firstn_skipn (length p + length pre) a) at 1. rewrite app_assoc. f_equal.
  assert (F : firstn (length p + length pre) (a ++ b) = firstn (length p + length pre) ((pre ++ p) ++ post)) by (rewrite <- app_assoc; congruence).
  rewrite firstn_app in F. replace (length p + length pre - length a)%nat with 0%nat in F by lia. rewrite app_nil_r in F. rewrite F.
  rewrite firstn_app, firstn_all2 by (rewrite app_length; lia). rewrite app_length.
  replace (length p + length pre - (length pre + length p))%nat with 0%nat by lia. apply app_nil_r.
Qed.
Lemma occurs_app_l : forall p a b i, occurs_at p a i -> occurs_at p (a ++ b) i.
Proof. intros p a b i (pre & post & -> & H). exists pre, (post ++ b). rewrite <- !app_assoc. auto. Qed.

Lemma split_join_into : forall sep comps l, sep <> [] -> Forall (separable sep) comps -> split_into sep (join sep comps) l -> l = comps.
Proof.
  intros sep. induction comps as [|c comps IH]; intros l Hn Hs H.
  - cbn [join] in H. inversion H as [E|cs A B E F|post E F|pre post l' A B C E F]; auto; try congruence; exfalso.
    + apply app_eq_nil in E. destruct E. congruence.
    + apply app_eq_nil in E. destruct E as [_ E]. apply app_eq_nil in E. destruct E. congruence.
  - inversion Hs as [|? ? [H1 H2] H3]; subst.
    assert (Q : forall i, occurs_at sep (join sep (c :: comps)) i -> (length c <= i)%nat).
    { intros i Ho. destruct (le_lt_dec (length c) i) as [Hi|Hi]; auto.
      assert (F : occurs_at sep (c ++ sep) i); [|apply H2 in F; lia].
      destruct comps as [|y comps]; [apply occurs_app_l; auto|].
      rewrite join_cons, app_assoc in Ho by congruence. eapply occurs_trunc; [exact Ho|]. rewrite app_length. lia. }
    remember (join sep (c :: comps)) as J eqn:EJ.
    destruct H as [|cs A B|post|pre post l' A B C].
    + exfalso. destruct comps; [cbn [join] in EJ; congruence|]. rewrite join_cons in EJ by congruence. symmetry in EJ. apply app_eq_nil in EJ. tauto.
    + destruct comps as [|y comps]; [cbn [join] in EJ; congruence|]. exfalso. rewrite join_cons in EJ by congruence. apply (B (length c)).
      rewrite EJ. exists c, (join sep (y :: comps)). auto.
    + exfalso. assert (Hz : (length c <= 0)%nat) by (apply Q; exists [], post; auto). destruct c; [congruence|cbn in Hz; lia].
    + destruct B as (_ & B1 & B2). pose proof (Q _ B1) as Hq. rewrite EJ in B1, B2. destruct comps as [|y comps].
      { cbn [join] in B1. apply occurs_bound in B1. exfalso. destruct sep; [congruence|cbn in B1; lia]. }
      rewrite join_cons in B1, B2, EJ by congruence.
      assert (length pre = length c).
      { destruct (Nat.eq_dec (length pre) (length c)) as [|Hne]; auto. exfalso. apply (B2 (length c)); [lia|]. exists c, (join sep (y :: comps)). auto. }
      apply app_same_length in EJ; auto. destruct EJ as [-> E]. apply app_inv_head in E. subst post. f_equal. apply IH; auto.
Qed.
Lemma split_join : forall sep comps, text sep -> sep <> [] -> Forall text comps -> Forall (separable sep) comps ->
  split (combine (map encode comps) (encode sep)) (encode sep) = Ok (map encode comps).
Proof.
  intros sep comps H1 H2 H3 H4. rewrite combine_join, <- encode_join.
  destruct (split_ok (join sep comps) sep) as (l & -> & Hl); auto using text_join.
  rewrite (split_join_into _ _ _ H2 H4 Hl). auto.
Qed.
Lemma split_into_nil : forall sep cs, sep <> [] -> split_into sep cs [] -> cs = [].
Proof. intros sep cs Hn H. inversion H; auto. Qed.
Lemma join_split_into : forall sep cs l, sep <> [] -> split_into sep cs l -> join sep l = cs \/ (l <> [] /\ join sep l ++ sep = cs).
Proof.
  intros sep cs l Hn. induction 1 as [|cs H1 H2|post|pre post l H1 H2 H3 IH]; auto.
  destruct l as [|x l].
  - apply split_into_nil in H3; auto. subst post. right. split; [congruence|]. cbn [join]. rewrite app_nil_r. auto.
  - rewrite join_cons by congruence. destruct IH as [->|[_ IH]]; auto. right. split; [congruence|]. rewrite <- IH, <- !app_assoc. auto.
Qed.
Lemma join_split : forall cs sep, text cs -> text sep -> sep <> [] ->
  exists l, split (encode cs) (encode sep) = Ok l /\ (combine l (encode sep) = encode cs \/ combine l (encode sep) ++ encode sep = encode cs).
Proof.
  intros cs sep H1 H2 H3. destruct (split_ok cs sep H1 H2 H3) as (l & -> & Hl). eexists. split; [reflexivity|].
  rewrite combine_join, <- encode_join. destruct (join_split_into _ _ _ H3 Hl) as [->|[_ <-]]; auto. right. rewrite encode_app. auto.
Qed.
Lemma separable_char : forall ch c, c <> [] -> ~ In ch c -> separable [ch] c.
Proof.
  intros ch c Hn H. split; auto. intros i Ho. pose proof (occurs_bound _ _ _ Ho) as Hb. rewrite app_length in Hb. cbn [length] in Hb.
  destruct (Nat.eq_dec i (length c)) as [|Hne]; auto. exfalso. apply H.
  apply occurs_trunc in Ho; [|cbn; lia]. destruct Ho as (pre & post & -> & _). apply in_app_iff. right. left. auto.
Qed.

(** ** Trimming (C32) *)
Section Trim.
  Variable isspace : Z -> outcome bool.
  Variable space : N -> bool.
  Notation agrees cs := (forall c, In c cs -> isspace (Z.of_N c) = Ok (space c)).
  Notation spaces cs := (Forall (fun c => space c = true) cs).

  Lemma trim_head_ok : forall cs fuel loc r, text cs -> agrees cs -> (length cs < fuel)%nat ->
    (spaces cs /\ trim_head isspace fuel (encode cs ++ 0 :: r) loc = Ok ((loc + length (encode cs))%nat, 0%nat, 0 :: r)) \/
    (exists pre c rest, cs = pre ++ c :: rest /\ spaces pre /\ space c = false /\
       trim_head isspace fuel (encode cs ++ 0 :: r) loc = Ok ((loc + length (encode pre))%nat, length (utf8 c), encode rest ++ 0 :: r)).
  Proof.
    induction cs as [|c cs IH]; intros fuel loc r Ht Ha Hf; (destruct fuel as [|fuel]; [cbn in Hf; lia|]); cbn [trim_head].
    - left. split; [constructor|]. change (encode [] ++ 0 :: r) with (0 :: r). rewrite rd_term. cbn [obind N.eqb encode map concat length]. rewrite Nat.add_0_r. auto.
    - pose proof (encode_cstring _ Ht) as Hc. assert (Hn : encode (c :: cs) <> []) by (apply encode_nonempty; congruence).
      destruct (rd_first _ r Hc Hn) as (b & -> & Hb). cbn [obind]. rewrite Hb. rewrite ustrscan_next by auto.
      inversion Ht as [|? ? H1 H2]; subst. rewrite encode_cons, <- app_assoc. rewrite next_utf8 by apply H1. cbn [obind fst snd]. rewrite skipn_len_app.
      rewrite (Ha c) by (left; auto). cbn [obind]. destruct (space c) eqn:E.
      + destruct (IH fuel (loc + length (utf8 c))%nat r H2) as [[G1 G2]|(pre & c' & rest & G1 & G2 & G3 & G4)].
        * intros x Hx. apply Ha. right. auto.
        * cbn in Hf. lia.
        * left. split; [constructor; auto|]. rewrite G2, app_length, Nat.add_assoc. auto.
        * right. exists (c :: pre), c', rest. split; [cbn; congruence|]. split; [constructor; auto|]. split; auto.
          rewrite G4, encode_cons, app_length, Nat.add_assoc. auto.
      + right. exists [], c, cs. split; auto. split; [constructor|]. split; auto. cbn [encode map concat length]. rewrite Nat.add_0_r. auto.
  Qed.
  Lemma trim_tail_ok : forall cs fuel len rlen r, text cs -> agrees cs -> (length cs < fuel)%nat ->
    (spaces cs /\ trim_tail isspace fuel (encode cs ++ 0 :: r) len rlen = Ok rlen) \/
    (exists mid c post, cs = mid ++ c :: post /\ spaces post /\ space c = false /\
       trim_tail isspace fuel (encode cs ++ 0 :: r) len rlen = Ok (len + length (encode (mid ++ [c])))%nat).
  Proof.
    induction cs as [|c cs IH]; intros fuel len rlen r Ht Ha Hf; (destruct fuel as [|fuel]; [cbn in Hf; lia|]); cbn [trim_tail].
    - left. split; [constructor|]. auto.
    - pose proof (encode_cstring _ Ht) as Hc. assert (Hn : encode (c :: cs) <> []) by (apply encode_nonempty; congruence).
      destruct (rd_first _ r Hc Hn) as (b & -> & Hb). cbn [obind]. rewrite Hb. rewrite ustrscan_next by auto.
      inversion Ht as [|? ? H1 H2]; subst. rewrite encode_cons, <- app_assoc. rewrite next_utf8 by apply H1. cbn [obind fst snd]. rewrite skipn_len_app.
      rewrite (Ha c) by (left; auto). cbn [obind].
      destruct (IH fuel (len + length (utf8 c))%nat (if space c then rlen else (len + length (utf8 c))%nat) r H2) as [[G1 G2]|(mid & c' & post & G1 & G2 & G3 & G4)].
      + intros x Hx. apply Ha. right. auto.
      + cbn in Hf. lia.
      + rewrite G2. destruct (space c) eqn:E.
        * left. split; auto.
        * right. exists [], c, cs. split; auto. split; auto. split; auto. cbn [app]. rewrite encode_cons. change (encode []) with (@nil N). rewrite app_nil_r. auto.
      + rewrite G4. right. exists (c :: mid), c', post. split; [cbn; congruence|]. split; auto. split; auto.
        change ((c :: mid) ++ [c']) with (c :: (mid ++ [c'])). rewrite encode_cons, app_length. f_equal. lia.
  Qed.
  Lemma copy_mid : forall pre mid post, copy_bytes (sto (encode (pre ++ mid ++ post))) (length (encode pre)) (length (encode mid)) = encode mid.
  Proof.
    intros. unfold copy_bytes. rewrite sto_term, !encode_app, <- !app_assoc, skipn_len_app, firstn_app, Nat.sub_diag, firstn_all, app_nil_r. auto.
  Qed.
  Lemma encode_len_inv : forall pre mid post, length (encode mid) = length (encode (pre ++ mid ++ post)) -> pre ++ mid ++ post = mid.
  Proof.
    intros pre mid post H. rewrite !encode_app, !app_length in H. pose proof (encode_length pre). pose proof (encode_length post).
    destruct pre; [|cbn [length] in *; lia]. destruct post; [|cbn [length] in *; lia]. cbn [app]. rewrite app_nil_r. auto.
  Qed.
  Lemma trim_ok : forall cs, text cs -> agrees cs ->
    exists mid, trim isspace (encode cs) = Ok (encode mid) /\ trimmed space cs mid.
  Proof.
    intros cs Ht Ha. unfold trim. rewrite sto_term.
    assert (Hf : (length cs < S (length (encode cs ++ 0%N :: [0%N; 0%N; 0%N])))%nat) by (rewrite app_length; pose proof (encode_length cs); lia).
    destruct (trim_head_ok cs _ 0%nat [0; 0; 0] Ht Ha Hf) as [[G1 ->]|(pre & c & rest & G1 & G2 & G3 & ->)]; cbn [obind].
    - exists []. split.
      + cbn [trim_tail]. rewrite rd_term. cbn [obind N.eqb]. change (encode []) with (@nil N). destruct (0 =? length (encode cs))%nat eqn:E; [|auto].
        apply Nat.eqb_eq in E. destruct (encode cs); [auto|discriminate].
      + exists cs, []. split; [cbn; rewrite app_nil_r; auto|]. split; [auto|]. split; [constructor|]. split; intros x l F; [discriminate|]. destruct l; discriminate.
    - assert (Hrest : text rest) by (rewrite G1 in Ht; apply text_app in Ht; destruct Ht as [_ Ht]; inversion Ht; auto).
      destruct (trim_tail_ok rest (S (length (encode cs ++ 0%N :: [0; 0; 0]))) (length (utf8 c)) (length (utf8 c)) [0; 0; 0] Hrest) as [[K1 ->]|(mid & c' & post & K1 & K2 & K3 & ->)]; cbn [obind].
      + intros x Hx. apply Ha. rewrite G1. apply in_app_iff. right. right. auto.
      + rewrite G1 in Hf. rewrite app_length in Hf. cbn [length] in Hf. rewrite G1. lia.
      + exists [c]. split; [|exists pre, rest; repeat split; auto].
        * replace (length (utf8 c)) with (length (encode [c])) by (cbn; rewrite app_nil_r; auto).
          destruct (length (encode [c]) =? length (encode cs))%nat eqn:E.
          -- apply Nat.eqb_eq in E. rewrite G1 in E |- *. change (pre ++ c :: rest) with (pre ++ [c] ++ rest) in *. rewrite encode_len_inv by auto. auto.
          -- f_equal. rewrite G1. change (pre ++ c :: rest) with (pre ++ [c] ++ rest). cbn [Nat.add].
             change (encode (pre ++ [c] ++ rest) ++ [0; 0; 0; 0]) with (sto (encode (pre ++ [c] ++ rest))). apply copy_mid.
        * intros x l F. inversion F. subst. auto.
        * intros x l F. destruct l as [|? [|? ?]]; inversion F. subst. auto.
      + assert (E1 : cs = pre ++ (c :: mid ++ [c']) ++ post) by (rewrite G1, K1, <- !app_comm_cons, <- app_assoc; auto).
        exists (c :: mid ++ [c']). split; [|exists pre, post; repeat split; auto].
        * replace (length (utf8 c) + length (encode (mid ++ [c'])))%nat with (length (encode (c :: mid ++ [c']))) by (rewrite encode_cons, app_length; auto).
          destruct (length (encode (c :: mid ++ [c'])) =? length (encode cs))%nat eqn:E.
          -- apply Nat.eqb_eq in E. rewrite E1 in E |- *. rewrite encode_len_inv by auto. auto.
          -- f_equal. rewrite E1. cbn [Nat.add]. match goal with |- context [?a ++ [0; 0; 0; 0]] => change (a ++ [0; 0; 0; 0]) with (sto a) end. apply copy_mid.
        * intros x l F. inversion F. subst. auto.
        * intros x l F. rewrite app_comm_cons in F. apply app_inj_tail in F. destruct F as [_ <-]. auto.
  Qed.
  Lemma trimmed_fix : forall mid mid', trimmed space mid mid' ->
    (forall c l, mid = c :: l -> space c = false) -> (forall c l, mid = l ++ [c] -> space c = false) -> mid' = mid.
  Proof.
    intros mid mid' (pre & post & H & A & B & _ & _) F1 F2.
    assert (pre = []).
    { destruct pre as [|x pre]; auto. pose proof (Forall_inv A) as P. cbv beta in P. rewrite (F1 x (pre ++ mid' ++ post)) in P by exact H. discriminate. }
    assert (post = []).
    { destruct post as [|x post] using rev_ind; auto. apply Forall_app in B. destruct B as [_ B]. pose proof (Forall_inv B) as P. cbv beta in P.
      rewrite (F2 x (pre ++ mid' ++ post)) in P by (rewrite H, <- !app_assoc; auto). discriminate. }
    subst. cbn. rewrite app_nil_r. auto.
  Qed.
  Lemma trim_idem : forall cs, text cs -> agrees cs ->
    exists mid, trim isspace (encode cs) = Ok (encode mid) /\ trimmed space cs mid /\ trim isspace (encode mid) = Ok (encode mid).
  Proof.
    intros cs Ht Ha. destruct (trim_ok cs Ht Ha) as (mid & E & H). exists mid. split; auto. split; auto.
    destruct H as (pre & post & -> & A & B & C & D).
    destruct (trim_ok mid) as (mid' & E' & H').
    - apply text_app in Ht. destruct Ht as [_ Ht]. apply text_app in Ht. tauto.
    - intros c Hc. apply Ha. rewrite !in_app_iff. auto.
    - rewrite E'. rewrite (trimmed_fix mid mid'); auto.
  Qed.
End Trim.

(** ** Filtering *)
Lemma filter_ok : forall St (f : St -> nat -> nat -> N -> St * (bool * bool)) g cs,
  (forall st i j c, In c cs -> g st i j (utf8 c) (Z.of_N c) = f st i j c) -> text cs ->
  forall fuel st i j out r, (length cs < fuel)%nat ->
  filter_loop St g fuel st (encode cs ++ 0 :: r) i j out = Ok (fst (filtered f st i j cs), out ++ encode (snd (filtered f st i j cs))).
Proof.
  intros St f g. induction cs as [|c cs IH]; intros Hg Ht fuel st i j out r Hf; (destruct fuel as [|fuel]; [cbn in Hf; lia|]); cbn [filter_loop].
  - change (encode [] ++ 0 :: r) with (0 :: r). rewrite rd_term. cbn [obind N.eqb filtered fst snd]. change (encode []) with (@nil N). rewrite app_nil_r. auto.
  - pose proof (encode_cstring _ Ht) as Hc. assert (Hn : encode (c :: cs) <> []) by (apply encode_nonempty; congruence).
    destruct (rd_first _ r Hc Hn) as (b & -> & Hb). cbn [obind]. rewrite Hb. rewrite ustrscan_next by auto.
    inversion Ht as [|? ? H1 H2]; subst. rewrite encode_cons, <- app_assoc. rewrite next_utf8 by apply H1. cbn [obind fst snd]. rewrite skipn_len_app.
    pose proof (utf8_nonempty c) as Hu. replace (8 <=? length (utf8 c))%nat with false by (symmetry; apply Nat.leb_gt; lia).
    rewrite firstn_app, Nat.sub_diag, firstn_all, app_nil_r. rewrite Hg by (left; auto). cbn [filtered].
    destruct (f st i j c) as [st' [keep stop]]. cbn [fst snd].
    assert (Hg' : forall st0 i0 j0 c0, In c0 cs -> g st0 i0 j0 (utf8 c0) (Z.of_N c0) = f st0 i0 j0 c0) by (intros; apply Hg; right; auto).
    destruct stop.
    + cbn [fst snd]. destruct keep; rewrite ?encode_cons; change (encode []) with (@nil N); rewrite ?app_nil_r; auto.
    + rewrite IH by (auto; cbn in Hf; lia). destruct (filtered f st' (S i) (if keep then S j else j) cs) as [st'' o]. cbn [fst snd].
      destruct keep; rewrite ?encode_cons, <- ?app_assoc; auto.
Qed.
Lemma filter_string_ok : forall St (f : St -> nat -> nat -> N -> St * (bool * bool)) g cs st,
  (forall st i j c, In c cs -> g st i j (utf8 c) (Z.of_N c) = f st i j c) -> text cs ->
  filter_string St g st (encode cs) = Ok (fst (filtered f st 0 0 cs), encode (snd (filtered f st 0 0 cs))).
Proof.
  intros. unfold filter_string. rewrite sto_term. rewrite filter_ok with (f := f); auto.
  rewrite app_length. pose proof (encode_length cs). lia.
Qed.
