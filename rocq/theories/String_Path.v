(** Paths: DKStringStandardizePath and the functions on path components. *)
Require Import Coq.ZArith.ZArith Coq.NArith.NArith Coq.Lists.List Coq.Bool.Bool Coq.Arith.Arith Coq.micromega.Lia.
Require Import Coq.micromega.ZifyN Coq.micromega.ZifyNat.
Require Import Verif.Base Verif.Array_Model Verif.Utf8_Model Verif.Utf8_Spec Verif.Utf8_Proofs Verif.Utf8_Strings Verif.String_Model Verif.String_Spec Verif.String_Proofs Verif.String_Lists.
Import ListNotations.
Local Open Scope N_scope.

(** ** Standardisation *)
Fixpoint squeeze (was : bool) (l : list N) : list N :=
  match l with
  | [] => []
  | b :: t => if b =? slash then (if was then squeeze true t else slash :: squeeze true t) else b :: squeeze false t
  end.
Fixpoint ends (was : bool) (l : list N) : bool :=
  match l with [] => was | b :: t => ends (b =? slash) t end.

(** What one scan reads: a slash, or bytes none of which is a slash. *)
Lemma scan_slash : forall s r, cstring s -> s <> [] ->
  exists z n, ustrscan (s ++ 0 :: r) = Ok (z, n) /\ (1 <= n <= length s)%nat /\
    ((z = 47%Z /\ n = 1%nat /\ exists t, s = slash :: t) \/ (z <> 47%Z /\ ~ In slash (firstn n s))).
Proof.
  intros s r Hc Hn. rewrite ustrscan_next by auto. destruct s as [|b s]; [congruence|]. clear Hn.
  destruct (b <? 128) eqn:Eb.
  - unfold u8_next. change ((b :: s) ++ 0 :: r) with (b :: (s ++ 0 :: r)). rewrite rd_0. cbn [obind]. rewrite Eb.
    eexists _, _. split; [reflexivity|]. split; [cbn; lia|]. destruct (N.eq_dec b slash) as [->|Hb].
    + left. repeat split; eauto.
    + right. split; [unfold slash in Hb; lia|]. cbn [firstn In]. intros [F|[]]. auto.
  - apply N.ltb_ge in Eb. destruct (next_char (b :: s) Hc ltac:(congruence)) as (z & n & E & Hl & Hz). rewrite E. exists z, n. split; auto. split; auto. right.
    destruct n as [|n]; [lia|]. cbn [firstn]. destruct Hz as [[-> Hf]|(c & Hc' & -> & Hu)].
    + split; [lia|]. cbn [skipn] in Hf. replace (S n - 1)%nat with n in Hf by lia. intros [F|F]; [unfold slash in F; lia|].
      rewrite Forall_forall in Hf. apply Hf in F. unfold trail_byte, slash in F. lia.
    + cbn [firstn] in Hu. assert (Hc128 : 128 <= c).
      { unfold utf8 in Hu. destruct (c <? 128) eqn:E2; [|apply N.ltb_ge in E2; auto]. apply N.ltb_lt in E2. inversion Hu. lia. }
      split; [lia|]. rewrite Hu. unfold utf8, slash. replace (c <? 128) with false by (symmetry; apply N.ltb_ge; auto).
      destruct (c <? 2048); [|destruct (c <? 65536)]; cbn [In]; intros F; repeat destruct F as [F|F]; auto; lia.
Qed.
Lemma squeeze_plain : forall u was t, ~ In slash u -> u <> [] -> squeeze was (u ++ t) = u ++ squeeze false t.
Proof.
  induction u as [|b u IH]; intros was t H Hn; [congruence|]. cbn [app squeeze].
  replace (b =? slash) with false by (symmetry; apply N.eqb_neq; intros ->; apply H; left; auto). f_equal.
  destruct u as [|c u]; auto. apply IH; [|congruence]. intros F. apply H. right. auto.
Qed.
Lemma ends_plain : forall u was t, ~ In slash u -> u <> [] -> ends was (u ++ t) = ends false t.
Proof.
  induction u as [|b u IH]; intros was t H Hn; [congruence|]. cbn [app ends].
  replace (b =? slash) with false by (symmetry; apply N.eqb_neq; intros ->; apply H; left; auto).
  destruct u as [|c u]; auto. apply IH; [|congruence]. intros F. apply H. right. auto.
Qed.
Lemma upd_mid : forall A (a : list A) x b y, upd (a ++ x :: b) (length a) y = a ++ y :: b.
Proof. induction a; intros; cbn; f_equal; auto. Qed.
Lemma rd_app : forall a b t, rd (a ++ b :: t) (length a) = Ok b.
Proof. intros. unfold rd. rewrite nth_error_app2, Nat.sub_diag by lia. auto. Qed.
Lemma copy_loop_ok : forall u out junk t, exists junk', length junk' = length junk /\
  copy_loop (length u) (out ++ junk ++ u ++ t) (length out) (length out + length junk) = Ok ((out ++ u) ++ junk' ++ t).
Proof.
  induction u as [|b u IH]; intros out junk t.
  - exists junk. split; auto. cbn [length copy_loop app]. rewrite app_nil_r. auto.
  - cbn [length copy_loop].
    assert (R : rd (out ++ junk ++ (b :: u) ++ t) (length out + length junk) = Ok b) by (rewrite app_assoc, <- app_length; cbn [app]; apply rd_app).
    rewrite R. cbn [obind].
    replace (length out <? length (out ++ junk ++ (b :: u) ++ t))%nat with true by (symmetry; apply Nat.ltb_lt; rewrite !app_length; cbn; lia).
    destruct junk as [|j js].
    + cbn [app length]. rewrite upd_mid. destruct (IH (out ++ [b]) [] t) as (junk' & L & E).
      exists junk'. split; auto. rewrite Nat.add_0_r. cbn [app] in E. rewrite <- app_assoc in E. cbn [app] in E.
      rewrite app_length in E. cbn [length] in E. replace (length out + 1 + 0)%nat with (S (length out)) in E by lia. replace (length out + 1)%nat with (S (length out)) in E by lia.
      rewrite E. f_equal. rewrite <- !app_assoc. auto.
    + cbn [app length]. rewrite upd_mid. destruct (IH (out ++ [b]) (js ++ [b]) t) as (junk' & L & E).
      exists junk'. split; [rewrite L, app_length; cbn; lia|]. rewrite <- !app_assoc in E. cbn [app] in E.
      rewrite !app_length in E. cbn [length] in E. replace (length out + 1 + (length js + 1))%nat with (S (length out + S (length js))) in E by lia.
      replace (length out + 1)%nat with (S (length out)) in E by lia. cbn [app]. rewrite E. f_equal. rewrite <- !app_assoc. auto.
Qed.

Lemma standardize_loop_ok : forall fuel rest was out junk r, cstring rest -> (length rest < fuel)%nat ->
  exists junk', (length junk' + length (squeeze was rest) = length junk + length rest)%nat /\
    standardize_loop fuel (out ++ junk ++ rest ++ 0 :: r) (length out) (length out + length junk) was =
      Ok ((out ++ squeeze was rest) ++ junk' ++ 0 :: r, length (out ++ squeeze was rest), ends was rest).
Proof.
  induction fuel as [|fuel IH]; intros rest was out junk r Hc Hf; [lia|]. cbn [standardize_loop].
  replace (skipn (length out + length junk) (out ++ junk ++ rest ++ 0 :: r)) with (rest ++ 0 :: r).
  2:{ rewrite (app_assoc out), <- app_length, skipn_len_app. auto. }
  destruct rest as [|b rest].
  { unfold ustrscan. cbn [app]. rewrite rd_term. cbn [obind N.eqb snd Nat.eqb]. exists junk. split; auto. cbn [squeeze ends]. rewrite app_nil_r. auto. }
  destruct (scan_slash (b :: rest) r Hc ltac:(congruence)) as (z & n & -> & Hl & Hz). cbn [obind fst snd].
  replace (n =? 0)%nat with false by (symmetry; apply Nat.eqb_neq; lia).
  remember (b :: rest) as s eqn:Es. clear Es b rest.
  assert (Hsplit : exists u t, s = u ++ t /\ length u = n) by (exists (firstn n s), (skipn n s); rewrite firstn_skipn, firstn_length; split; auto; lia).
  destruct Hsplit as (u & t & -> & Hu). rewrite firstn_app, Hu, Nat.sub_diag in Hz. cbn [firstn] in Hz. rewrite app_nil_r, <- Hu, firstn_all in Hz. subst n.
  assert (Hct : cstring t) by (rewrite <- (skipn_len_app N u t); apply cstring_skipn; auto).
  assert (Hft : (length t < fuel)%nat) by (rewrite app_length in *; lia).
  assert (Hcopy : forall b', squeeze was (u ++ t) = u ++ squeeze b' t -> ends was (u ++ t) = ends b' t -> 
    exists junk', (length junk' + length (squeeze was (u ++ t)) = length junk + length (u ++ t))%nat /\
      (do mem' <- copy_loop (length u) (out ++ junk ++ (u ++ t) ++ 0 :: r) (length out) (length out + length junk);
       standardize_loop fuel mem' (length out + length u) (length out + length junk + length u) b') =
      Ok ((out ++ squeeze was (u ++ t)) ++ junk' ++ 0 :: r, length (out ++ squeeze was (u ++ t)), ends was (u ++ t))).
  { intros b' Q1 Q2. destruct (copy_loop_ok u out junk (t ++ 0 :: r)) as (junk1 & L1 & E1). rewrite <- app_assoc, E1. cbn [obind].
    destruct (IH t b' (out ++ u) junk1 r Hct Hft) as (junk2 & L2 & E2). exists junk2. rewrite Q1, Q2. split; [rewrite !app_length; lia|].
    rewrite app_length in E2. rewrite L1 in E2. replace (length out + length junk + length u)%nat with (length out + length u + length junk)%nat by lia.
    rewrite E2. rewrite <- !app_assoc. auto. }
  destruct Hz as [(-> & Hu1 & (t' & Ht'))|(Hz & Hu1)].
  - assert (Hus : u = [slash]).
    { destruct u as [|x [|y u]]; cbn in Hu1; try lia. cbn in Ht'. inversion Ht'. auto. }
    change (47 =? 47)%Z with true. cbn [negb]. rewrite orb_false_r. destruct was; cbn [negb].
    + destruct (IH t true out (junk ++ u) r Hct Hft) as (junk' & L & E). exists junk'.
      rewrite Hus in *. cbn [app squeeze ends]. rewrite N.eqb_refl. split; [rewrite !app_length in *; cbn [length] in *; lia|].
      rewrite app_length in E. cbn [length] in E |- *. rewrite <- !app_assoc in *. cbn [app] in *. rewrite Nat.add_assoc in E. exact E.
    + apply Hcopy; rewrite Hus; auto.
  - replace (z =? 47)%Z with false by (symmetry; apply Z.eqb_neq; auto). cbn [negb]. rewrite orb_true_r.
    assert (Hne : u <> []) by (intros ->; cbn in Hl; lia).
    apply Hcopy; [apply squeeze_plain; auto|apply ends_plain; auto].
Qed.
Definition strip (l : list N) (e : bool) : list N := if e && (1 <? length l)%nat then removelast l else l.
Lemma removelast_firstn' : forall A (l : list A), removelast l = firstn (length l - 1) l.
Proof.
  induction l as [|x l IH]; auto. destruct l as [|y l]; auto. change (removelast (x :: y :: l)) with (x :: removelast (y :: l)). rewrite IH.
  cbn [length]. replace (S (S (length l)) - 1)%nat with (S (S (length l) - 1)) by lia. auto.
Qed.
Lemma standardize_squeeze : forall s, cstring s -> standardize s = Ok (strip (squeeze false s) (ends false s)).
Proof.
  intros s Hc. unfold standardize.
  destruct (standardize_loop_ok (S (length (sto s))) s false [] [] [0; 0; 0] Hc) as (junk & L & E); [unfold sto; rewrite app_length; lia|].
  cbn [app length Nat.add] in E. rewrite sto_term in *. rewrite E. cbn [obind]. clear E. cbn [length] in L. unfold strip.
  set (q := squeeze false s) in *.
  replace (firstn (length s) (q ++ junk ++ [0; 0; 0; 0])) with (q ++ junk).
  2:{ rewrite app_assoc, firstn_app. rewrite app_length. replace (length s - (length q + length junk))%nat with 0%nat by lia.
      rewrite firstn_all2 by (rewrite app_length; lia). rewrite app_nil_r. auto. }
  unfold replace_bytes.
  assert (Hr : forall loc, (loc <= length q)%nat -> (if (loc + (length s - loc) <=? length (q ++ junk))%nat then Ok (firstn loc (q ++ junk) ++ [] ++ skipn (loc + (length s - loc)) (q ++ junk)) else UB) = Ok (firstn loc q)).
  { intros loc Hl. rewrite app_length. replace (loc + (length s - loc))%nat with (length s) by lia.
    replace (length s <=? length q + length junk)%nat with true by (symmetry; apply Nat.leb_le; lia).
    rewrite skipn_all2 by (rewrite app_length; lia). rewrite firstn_app. replace (loc - length q)%nat with 0%nat by lia. cbn [firstn app]. rewrite !app_nil_r. auto. }
  destruct (ends false s && (1 <? length q)%nat) eqn:Ee.
  - rewrite Hr by lia. rewrite removelast_firstn'. auto.
  - rewrite Hr by lia. rewrite firstn_all. auto.
Qed.

Definition slashed (comps : list (list N)) : list N := concat (map (fun c => c ++ [slash]) comps).
Lemma slashed_join : forall comps, comps <> [] -> slashed comps = join [slash] comps ++ [slash].
Proof.
  induction comps as [|c comps IH]; intros H; [congruence|]. unfold slashed in *. cbn [map concat]. destruct comps as [|d comps].
  - cbn. rewrite app_nil_r. auto.
  - rewrite join_cons, IH by congruence. rewrite <- !app_assoc. auto.
Qed.
Scheme path_ind' := Induction for path_of Sort Prop with rest_ind' := Induction for rest_of Sort Prop.
Lemma rest_nil_inv : forall comps, rest_of [] comps -> comps = [].
Proof.
  intros comps H. inversion H as [|s c A B|c s cs A B C D]; auto. exfalso. apply app_eq_nil in D. destruct A as [A _].
  destruct D as [-> ->]. auto.
Qed.
Lemma rest_all_slash : forall s, rest_of s [] -> ends true s = true.
Proof.
  intros s H. remember [] as comps eqn:E. induction H; auto; try discriminate.
Qed.
Lemma rest_squeeze : forall s comps, rest_of s comps ->
  squeeze true s = (if ends true s then slashed comps else join [slash] comps).
Proof.
  induction 1 as [|s comps H IH|c s comps [Hc1 Hc2] H IH Hs]; auto.
  rewrite squeeze_plain, ends_plain by auto. destruct Hs as [->|(t & ->)].
  - apply rest_nil_inv in H. subst. cbn [squeeze ends join]. rewrite app_nil_r. auto.
  - cbn [squeeze ends] in *. rewrite N.eqb_refl in *. rewrite IH. destruct (ends true t) eqn:E.
    + unfold slashed. cbn [map concat]. rewrite <- app_assoc. auto.
    + rewrite join_cons; [auto|]. intros ->. apply rest_all_slash in H. cbn [ends] in H. rewrite N.eqb_refl in H. congruence.
Qed.
Lemma strip_snoc : forall l x e, strip (l ++ [x]) e = if e && (0 <? length l)%nat then l else l ++ [x].
Proof.
  intros. unfold strip. rewrite app_length. cbn [length]. replace (1 <? length l + 1)%nat with (0 <? length l)%nat.
  - rewrite removelast_last. auto.
  - destruct l; auto. symmetry. apply Nat.ltb_lt. cbn. lia.
Qed.
Lemma join_nonempty : forall sep c comps, c <> [] -> join sep (c :: comps) <> [].
Proof. intros sep c [|d comps] H; auto. rewrite join_cons by congruence. intros F. apply app_eq_nil in F. tauto. Qed.
Lemma rest_components : forall s comps, rest_of s comps -> Forall component comps.
Proof. induction 1; auto. Qed.
Lemma path_components : forall s abs comps, path_of s abs comps -> Forall component comps.
Proof. intros s abs comps H. inversion H; subst; auto; [eapply rest_components; eauto|constructor; auto; eapply rest_components; eauto]. Qed.
Theorem standardize_path : forall s abs comps, cstring s -> path_of s abs comps -> standardize s = Ok (render abs comps).
Proof.
  intros s abs comps Hs H. rewrite standardize_squeeze by auto. f_equal. destruct H as [|s comps H|c s comps [Hc1 Hc2] H Hr].
  - reflexivity.
  - cbn [squeeze ends]. rewrite N.eqb_refl. rewrite (rest_squeeze _ _ H). unfold render. destruct (ends true s) eqn:E.
    + destruct comps as [|c comps]; [reflexivity|]. rewrite slashed_join by congruence. rewrite app_comm_cons, strip_snoc. reflexivity.
    + unfold strip. reflexivity.
  - rewrite squeeze_plain, ends_plain by auto. unfold render. destruct Hr as [->|(t & ->)].
    + apply rest_nil_inv in H. subst. cbn [squeeze ends]. unfold strip. cbn. rewrite app_nil_r. auto.
    + pose proof (rest_squeeze _ _ H) as Q. cbn [squeeze ends] in *. rewrite N.eqb_refl in *. rewrite Q. destruct (ends true t) eqn:E.
      * destruct comps as [|d comps].
        -- cbn [slashed map concat]. change (slash :: []) with [slash]. rewrite strip_snoc. cbn [andb].
           replace (0 <? length c)%nat with true by (symmetry; apply Nat.ltb_lt; destruct c; [congruence|cbn; lia]). reflexivity.
        -- rewrite slashed_join by congruence. rewrite app_comm_cons, app_assoc, strip_snoc. cbn [andb].
           replace (0 <? length (c ++ slash :: join [slash] (d :: comps)))%nat with true by (symmetry; apply Nat.ltb_lt; rewrite app_length; cbn; lia).
           rewrite (join_cons _ c) by congruence. reflexivity.
      * unfold strip. cbn [andb]. rewrite join_cons; [reflexivity|]. intros ->. apply rest_all_slash in H. cbn [ends] in H. rewrite N.eqb_refl in H. congruence.
Qed.

Lemma component_split : forall s, exists c t, s = c ++ t /\ ~ In slash c /\ (t = [] \/ exists t', t = slash :: t').
Proof.
  induction s as [|b s (c & t & -> & H1 & H2)]; [exists [], []; auto|].
  destruct (N.eq_dec b slash) as [->|Hb].
  - exists [], (slash :: c ++ t). split; auto. split; auto. right. eauto.
  - exists (b :: c), t. split; auto. split; auto. intros [F|F]; auto.
Qed.
Lemma rest_total : forall n s, (length s <= n)%nat -> exists comps, rest_of s comps.
Proof.
  induction n as [|n IH]; intros s Hl.
  - destruct s; [exists []; constructor|cbn in Hl; lia].
  - destruct s as [|b s]; [exists []; constructor|]. destruct (N.eq_dec b slash) as [->|Hb].
    + destruct (IH s) as (comps & H); [cbn in Hl; lia|]. exists comps. constructor. auto.
    + destruct (component_split (b :: s)) as (c & t & E & H1 & H2). destruct c as [|x c].
      { exfalso. cbn in E. destruct H2 as [->|(t' & ->)]; inversion E; auto. }
      destruct (IH t) as (comps & H). { assert (Q := f_equal (@length N) E). rewrite app_length in Q. cbn in Q, Hl. lia. }
      exists ((x :: c) :: comps). rewrite E. apply rest_comp; auto. split; auto. congruence.
Qed.
Lemma path_total : forall s, exists abs comps, path_of s abs comps.
Proof.
  intros [|b s]; [exists false, []; constructor|]. destruct (N.eq_dec b slash) as [->|Hb].
  - destruct (rest_total (length s) s) as (comps & H); auto. exists true, comps. constructor. auto.
  - destruct (component_split (b :: s)) as (c & t & E & H1 & H2). destruct c as [|x c].
    { exfalso. cbn in E. destruct H2 as [->|(t' & ->)]; inversion E; auto. }
    destruct (rest_total (length t) t) as (comps & H); auto. exists false, ((x :: c) :: comps). rewrite E. apply path_rel; auto. split; auto. congruence.
Qed.
Lemma rest_join : forall comps, Forall component comps -> rest_of (join [slash] comps) comps.
Proof.
  induction 1 as [|c comps H1 H2 IH]; [constructor|]. destruct comps as [|d comps].
  - cbn [join]. rewrite <- (app_nil_r c) at 1. apply rest_comp; auto using rest_nil.
  - rewrite join_cons by congruence. apply rest_comp; auto; [|right; eexists; reflexivity]. cbn [app]. constructor. auto.
Qed.
Lemma path_render : forall abs comps, Forall component comps -> path_of (render abs comps) abs comps.
Proof.
  intros abs comps H. unfold render. destruct abs; cbn [app]; [constructor; apply rest_join; auto|].
  destruct H as [|c comps H1 H2]; [constructor|]. destruct comps as [|d comps].
  - cbn [join]. rewrite <- (app_nil_r c) at 1. apply path_rel; auto using rest_nil.
  - rewrite join_cons by congruence. apply path_rel; auto; [|right; eexists; reflexivity]. cbn [app]. constructor. apply rest_join. auto.
Qed.
Lemma path_fun : forall s a1 c1 a2 c2, path_of s a1 c1 -> path_of s a2 c2 -> a1 = a2 /\ c1 = c2.
Proof.
  assert (Split : forall c d s t, component c -> component d -> (s = [] \/ exists x, s = slash :: x) -> (t = [] \/ exists x, t = slash :: x) ->
    c ++ s = d ++ t -> c = d /\ s = t).
  { induction c as [|x c IH]; intros d s t [Hc1 Hc2] [Hd1 Hd2] Hs Ht E; [congruence|]. destruct d as [|y d]; [congruence|].
    cbn in E. inversion E; subst y. destruct c as [|x' c], d as [|y' d].
    - cbn in H1. subst. auto.
    - cbn in H1. destruct Hs as [->|(z & ->)]; [discriminate|]. inversion H1; subst. exfalso. apply Hd2. right. left. auto.
    - cbn in H1. destruct Ht as [->|(z & ->)]; [discriminate|]. inversion H1; subst. exfalso. apply Hc2. right. left. auto.
    - destruct (IH (y' :: d) s t) as [-> ->]; auto.
      + split; [congruence|]. intros F. apply Hc2. right. auto. + split; [congruence|]. intros F. apply Hd2. right. auto. }
  assert (R : forall s c1, rest_of s c1 -> forall c2, rest_of s c2 -> c1 = c2).
  { induction 1 as [|s c1 H IH|c s c1 Hc H IH Hs]; intros c2 H2.
    - apply rest_nil_inv in H2. auto.
    - inversion H2 as [|s' c' A B|c s' c' A B C D]; subst; auto. exfalso. destruct A as [A1 A2]. destruct c as [|x c]; [congruence|]. inversion D; subst. apply A2. left. auto.
    - inversion H2 as [E|s' c' A E|d s' c' A B C D E]; subst.
      + exfalso. destruct c; [destruct Hc; congruence|discriminate].
      + exfalso. destruct Hc as [A1 A2]. destruct c as [|x c]; [congruence|]. inversion E; subst. apply A2. left. auto.
      + destruct (Split d c s' s) as [-> ->]; auto. f_equal. auto. }
  intros s a1 c1 a2 c2 H1 H2. destruct H1 as [|s c1 H|c s c1 Hc H Hs].
  - remember [] as e eqn:Ee. destruct H2 as [|? ? A|d s' c' A B C]; auto; [discriminate|]. exfalso. destruct A as [A _]. destruct d; [congruence|discriminate].
  - inversion H2 as [|? ? A|d s' c' A B C D E]; subst; [split; eauto|]. exfalso. destruct A as [A1 A2]. destruct d as [|x d]; [congruence|]. inversion D; subst. apply A2. left. auto.
  - inversion H2 as [E|s' c' A E|d s' c' A B C D E]; subst.
    + exfalso. destruct Hc as [Hc _]. destruct c; [congruence|discriminate].
    + exfalso. destruct Hc as [A1 A2]. destruct c as [|x c]; [congruence|]. inversion E; subst. apply A2. left. auto.
    + destruct (Split d c s' s) as [-> ->]; auto. split; auto. f_equal. eauto.
Qed.

(** ** Components of well-formed paths *)
Lemma rest_app : forall s comps q cq, rest_of s comps -> rest_of q cq -> rest_of (s ++ slash :: q) (comps ++ cq).
Proof.
  intros s comps q cq H Hq. induction H as [|s comps H IH|c s comps Hc H IH Hs]; cbn [app].
  - constructor. auto.
  - constructor. auto.
  - rewrite <- app_assoc. apply rest_comp; auto. right. destruct Hs as [->|(t & ->)]; eexists; reflexivity.
Qed.
Lemma path_rest : forall q aq cq, path_of q aq cq -> rest_of q cq.
Proof. intros q aq cq H. inversion H; subst; constructor; auto. Qed.
Lemma path_app : forall s abs comps q cq, path_of s abs comps -> s <> [] -> rest_of q cq -> path_of (s ++ slash :: q) abs (comps ++ cq).
Proof.
  intros s abs comps q cq H Hn Hq. inversion H as [|s' c' A|c s' c' A B C]; subst; [congruence| |].
  - cbn [app]. constructor. apply rest_app; auto.
  - rewrite <- app_assoc. cbn [app]. apply path_rel; auto; [apply rest_app; auto|]. right. destruct C as [->|(t & ->)]; eexists; reflexivity.
Qed.
Lemma append_component_ok : forall s abs comps q aq cq, cstring s -> cstring q -> path_of s abs comps -> path_of q aq cq ->
  append_path_component s q = Ok (if (0 <? length s)%nat then render abs (comps ++ cq) else render aq cq).
Proof.
  intros s abs comps q aq cq Hs Hq H1 H2. unfold append_path_component. destruct (0 <? length s)%nat eqn:E.
  - apply Nat.ltb_lt in E. rewrite <- app_assoc. cbn [app]. apply standardize_path.
    + destruct Hs as [A B], Hq as [C D]. split; [apply Forall_app; split; auto; constructor; auto; reflexivity|]. rewrite in_app_iff. intros [F|[F|F]]; auto. discriminate.
    + apply path_app; auto; [destruct s; [cbn in E; lia|congruence]|]. eapply path_rest; eauto.
  - apply Nat.ltb_ge in E. destruct s; [|cbn in E; lia]. cbn [app]. apply standardize_path; auto.
Qed.

Lemma rest_last : forall s comps, rest_of s comps -> forall l c, comps = l ++ [c] ->
  exists pre n, s = pre ++ c ++ repeat slash n /\ (pre = [] \/ exists p, pre = p ++ [slash]).
Proof.
  induction 1 as [|s comps H IH|d s comps Hd H IH Hs]; intros l c E.
  - destruct l; discriminate.
  - destruct (IH l c E) as (pre & n & -> & Hp). exists (slash :: pre), n. split; auto. right. destruct Hp as [->|(p & ->)]; [exists []; auto|exists (slash :: p); auto].
  - destruct l as [|x l].
    + cbn in E. inversion E; subst. exists []. assert (Hr : exists n, s = repeat slash n).
      { clear - H. remember [] as comps eqn:E. induction H as [|s comps H IH|]; [exists 0%nat; auto| |discriminate]. destruct (IH E) as (n & ->). exists (S n). auto. }
      destruct Hr as (n & ->). exists n. auto.
    + cbn in E. injection E as E1 E2. subst x comps. destruct (IH l c eq_refl) as (pre & n & -> & Hp). exists (d ++ pre), n. split; [rewrite <- app_assoc; auto|]. right.
      destruct Hp as [->|(p & ->)]; [|exists (d ++ p); rewrite <- app_assoc; auto]. exfalso. apply rest_components in H. apply Forall_app in H. destruct H as [_ H]. inversion H as [|? ? [A B] _]; subst.
      destruct Hs as [Hs|(t & Hs)]; cbn in Hs; destruct c as [|y c]; try congruence; try discriminate. inversion Hs; subst. apply B. left. auto.
Qed.
Lemma path_last : forall s abs l c, path_of s abs (l ++ [c]) ->
  exists pre n, s = pre ++ c ++ repeat slash n /\ (pre = [] \/ exists p, pre = p ++ [slash]).
Proof. intros s abs l c H. eapply rest_last; [eapply path_rest; eauto|reflexivity]. Qed.

Lemma prev_at : forall cs c rest r, char_ok c -> u8_prev (encode (cs ++ c :: rest) ++ r) (length (encode (cs ++ [c]))) = Ok (Z.of_N c, length (encode cs)).
Proof.
  intros cs c rest r H. rewrite encode_app, encode_cons, encode_snoc, app_length, <- !app_assoc.
  rewrite Nat.add_comm. apply prev_utf8. apply H.
Qed.
Lemma enc_lt : forall cs c, (length (encode cs) < length (encode (cs ++ [c])))%nat.
Proof. intros. rewrite encode_snoc, app_length. pose proof (utf8_nonempty c). lia. Qed.
Lemma slash_ok : char_ok slash.
Proof. unfold char_ok, scalar, slash. lia. Qed.
Lemma skip_slashes_ok : forall n pre c rest r fuel, char_ok c -> c <> slash -> (length (encode (pre ++ c :: repeat slash n)) < fuel)%nat ->
  skip_slashes fuel (encode (pre ++ c :: repeat slash n ++ rest) ++ r) (length (encode (pre ++ c :: repeat slash n))) = Ok (length (encode (pre ++ [c]))).
Proof.
  induction n as [|n IH]; intros pre c rest r fuel Hc Hs Hf; (destruct fuel as [|fuel]; [lia|]); cbn [skip_slashes].
  - cbn [repeat app]. destruct (length (encode (pre ++ [c]))) as [|k] eqn:E; [pose proof (enc_lt pre c); lia|]. rewrite <- E.
    rewrite prev_at by auto. cbn [obind fst snd]. replace (Z.of_N c =? 47)%Z with false by (symmetry; apply Z.eqb_neq; unfold slash in Hs; lia). auto.
  - assert (R : repeat slash (S n) = repeat slash n ++ [slash]) by (clear; induction n; cbn in *; congruence). rewrite R in *.
    replace (pre ++ c :: (repeat slash n ++ [slash]) ++ rest) with ((pre ++ c :: repeat slash n) ++ slash :: rest) by (rewrite <- !app_assoc; reflexivity).
    replace (pre ++ c :: repeat slash n ++ [slash]) with ((pre ++ c :: repeat slash n) ++ [slash]) in * by (rewrite <- app_assoc; auto).
    pose proof (enc_lt (pre ++ c :: repeat slash n) slash) as Hlt.
    destruct (length (encode ((pre ++ c :: repeat slash n) ++ [slash]))) as [|k] eqn:E; [lia|]. rewrite <- E.
    rewrite prev_at by apply slash_ok. cbn [obind fst snd]. replace (Z.of_N slash =? 47)%Z with true by reflexivity.
    replace ((pre ++ c :: repeat slash n) ++ slash :: rest) with (pre ++ c :: repeat slash n ++ (slash :: rest)) by (rewrite <- app_assoc; auto).
    apply IH; auto. lia.
Qed.
Lemma back_ok : forall c pre rest r fuel, text c -> ~ In slash c -> (pre = [] \/ exists p, pre = p ++ [slash]) -> (length (encode (pre ++ c)) < fuel)%nat ->
  back_to_slash fuel (encode (pre ++ c ++ rest) ++ r) (length (encode (pre ++ c))) = Ok (length (encode pre)).
Proof.
  induction c as [|x c IH] using rev_ind; intros pre rest r fuel Ht Hs Hp Hf; (destruct fuel as [|fuel]; [lia|]); cbn [back_to_slash].
  - rewrite app_nil_r. destruct Hp as [->|(p & ->)]; auto.
    destruct (length (encode (p ++ [slash]))) as [|k] eqn:E; [pose proof (enc_lt p slash); lia|]. rewrite <- E.
    cbn [app]. rewrite <- app_assoc. cbn [app]. rewrite prev_at by apply slash_ok. cbn [obind fst snd].
    replace (Z.of_N slash =? 47)%Z with true by reflexivity. auto.
  - apply text_app in Ht. destruct Ht as [H1 H2]. inversion H2; subst.
    assert (Hx : x <> slash) by (intros ->; apply Hs; apply in_app_iff; right; left; auto).
    rewrite !app_assoc in *. pose proof (enc_lt (pre ++ c) x) as Hlt.
    destruct (length (encode ((pre ++ c) ++ [x]))) as [|k] eqn:E; [lia|]. rewrite <- E.
    rewrite <- (app_assoc _ [x]). cbn [app]. rewrite prev_at by auto. cbn [obind fst snd].
    replace (Z.of_N x =? 47)%Z with false by (symmetry; apply Z.eqb_neq; unfold slash in Hx; lia).
    rewrite <- app_assoc. apply IH; auto; [|lia]. intros F. apply Hs. apply in_app_iff. auto.
Qed.
Lemma last_component_ok : forall cs abs l c, text cs -> path_of cs abs (l ++ [c]) -> last_path_component (encode cs) = Ok (encode c).
Proof.
  intros cs abs l c Ht H. pose proof (path_components _ _ _ H) as Hc. apply Forall_app in Hc. destruct Hc as [_ Hc]. inversion Hc as [|? ? [C1 C2] _]; subst.
  destruct (path_last _ _ _ _ H) as (pre & n & E & Hp). unfold last_path_component.
  destruct c as [|x c _] using rev_ind; [congruence|].
  assert (Hx : x <> slash) by (intros ->; apply C2; apply in_app_iff; right; left; auto).
  assert (Htc : text (c ++ [x])) by (rewrite E in Ht; apply text_app in Ht; destruct Ht as [_ Ht]; apply text_app in Ht; tauto).
  assert (Hxo : char_ok x) by (apply text_app in Htc; destruct Htc as [_ Htc]; inversion Htc; auto).
  assert (Hroot : empty_or_root (encode cs) = false).
  { destruct (encode cs) as [|b [|b' t]] eqn:Ee; auto.
    - exfalso. assert (encode cs <> []); [apply encode_nonempty; rewrite E; destruct pre; [destruct c|]; discriminate|congruence].
    - cbn. apply N.eqb_neq. intros ->. assert (cs = [slash]).
      { apply encode_inj; auto. repeat constructor; unfold scalar, slash; lia. }
      rewrite H0 in E. assert (Q := f_equal (@length N) E). rewrite !app_length in Q. cbn [length] in Q.
      destruct pre; [|cbn in Q; lia]. destruct c; [|cbn in Q; lia]. cbn in E. inversion E. congruence. }
  rewrite Hroot.
  assert (E1 : cs = (pre ++ c) ++ x :: repeat slash n ++ []) by (rewrite E, <- !app_assoc, app_nil_r; auto).
  assert (E1' : cs = (pre ++ c) ++ x :: repeat slash n) by (rewrite E1, app_nil_r; auto).
  assert (S1 : skip_slashes (S (length (encode cs))) (sto (encode cs)) (length (encode cs)) = Ok (length (encode ((pre ++ c) ++ [x])))).
  { unfold sto. rewrite E1 at 2. rewrite E1' at 2. apply skip_slashes_ok; auto. rewrite E1'. lia. }
  rewrite S1. cbn [obind]. rewrite <- app_assoc.
  assert (S2 : back_to_slash (S (length (encode cs))) (sto (encode cs)) (length (encode (pre ++ (c ++ [x])))) = Ok (length (encode pre))).
  { unfold sto. rewrite E at 2. apply back_ok; auto. rewrite E, (app_assoc pre (c ++ [x]) (repeat slash n)), (encode_app (pre ++ c ++ [x]) (repeat slash n)), app_length. lia. }
  rewrite S2. cbn [obind]. destruct (length (encode (pre ++ c ++ [x]))) as [|k] eqn:Ek; [rewrite app_assoc in Ek; pose proof (enc_lt (pre ++ c) x); lia|].
  cbn [Nat.eqb]. rewrite <- Ek. f_equal. rewrite encode_app, app_length. replace (length (encode pre) + length (encode (c ++ [x])) - length (encode pre))%nat with (length (encode (c ++ [x]))) by lia.
  rewrite E. apply copy_mid.
Qed.

(** The last component of standard paths. *)
Lemma join_snoc : forall sep l c, l <> [] -> join sep (l ++ [c]) = join sep l ++ sep ++ c.
Proof.
  induction l as [|x l IH]; intros c H; [congruence|]. destruct l as [|y l]; auto.
  cbn [app]. change (y :: l ++ [c]) with ((y :: l) ++ [c]). rewrite (join_cons _ x (y :: l)) by congruence. rewrite join_cons by discriminate. rewrite IH by congruence. rewrite <- !app_assoc. auto.
Qed.
Lemma render_snoc : forall abs l c, render abs (l ++ [c]) = (if abs then [slash] else []) ++ (match l with [] => [] | _ => join [slash] l ++ [slash] end) ++ c.
Proof.
  intros abs l c. unfold render. f_equal. destruct l as [|x l]; auto. rewrite join_snoc by congruence. rewrite <- app_assoc. auto.
Qed.
Lemma encode_render : forall abs comps, encode (render abs comps) = render abs (map encode comps).
Proof. intros. unfold render. rewrite encode_app, encode_join. destruct abs; reflexivity. Qed.
Lemma utf8_slash : utf8 slash = [slash].
Proof. reflexivity. Qed.
Lemma slash_encode : forall c, text c -> (In slash (encode c) <-> In slash c).
Proof.
  induction c as [|x c IH]; intros H; [tauto|]. inversion H; subst. rewrite encode_cons, in_app_iff, IH by auto. cbn [In].
  assert (In slash (utf8 x) <-> x = slash); [|tauto]. unfold utf8, slash.
  destruct (x <? 128) eqn:E1; [cbn; intuition|]. apply N.ltb_ge in E1.
  destruct (x <? 2048); [|destruct (x <? 65536)]; cbn [In]; split; intros F; try lia; repeat destruct F as [F|F]; auto; lia.
Qed.
Lemma component_encode : forall c, text c -> component c -> component (encode c).
Proof. intros c Ht [H1 H2]. split; [apply encode_nonempty; auto|]. rewrite slash_encode; auto. Qed.
Lemma rest_encode : forall s comps, rest_of s comps -> text s -> rest_of (encode s) (map encode comps).
Proof.
  induction 1 as [|s comps H IH|c s comps Hc H IH Hs]; intros Ht; [constructor| |].
  - inversion Ht; subst. rewrite encode_cons, utf8_slash. constructor. auto.
  - apply text_app in Ht. destruct Ht as [T1 T2]. rewrite encode_app. cbn [map]. apply rest_comp; auto; [apply component_encode; auto|].
    destruct Hs as [->|(t & ->)]; [left; auto|right]. exists (encode t). rewrite encode_cons, utf8_slash. auto.
Qed.
Lemma path_encode : forall s abs comps, path_of s abs comps -> text s -> path_of (encode s) abs (map encode comps).
Proof.
  intros s abs comps H Ht. destruct H as [|s comps H|c s comps Hc H Hs]; [constructor| |].
  - inversion Ht; subst. rewrite encode_cons, utf8_slash. constructor. apply rest_encode; auto.
  - apply text_app in Ht. destruct Ht as [T1 T2]. rewrite encode_app. cbn [map]. apply path_rel; auto; [apply component_encode; auto|apply rest_encode; auto|].
    destruct Hs as [->|(t & ->)]; [left; auto|right]. exists (encode t). rewrite encode_cons, utf8_slash. auto.
Qed.
Lemma rest_text : forall s comps, rest_of s comps -> text s -> Forall text comps.
Proof.
  induction 1 as [|s comps H IH|c s comps Hc H IH Hs]; intros Ht; auto.
  - inversion Ht; auto. - apply text_app in Ht. destruct Ht. constructor; auto.
Qed.
Lemma path_text : forall s abs comps, path_of s abs comps -> text s -> Forall text comps.
Proof. intros s abs comps H. apply rest_text. eapply path_rest; eauto. Qed.
Lemma standardize_text : forall cs abs comps, text cs -> path_of cs abs comps -> standardize (encode cs) = Ok (encode (render abs comps)).
Proof.
  intros cs abs comps Ht H. rewrite encode_render. apply standardize_path; [apply encode_cstring; auto|apply path_encode; auto].
Qed.
Lemma text_render : forall abs comps, Forall text comps -> text (render abs comps).
Proof.
  intros abs comps H. unfold render. apply text_app. split.
  - destruct abs; constructor; [apply slash_ok|constructor].
  - apply text_join; auto. constructor; [apply slash_ok|constructor].
Qed.
Lemma rrchr_found : forall pre c post, text (pre ++ c :: post) -> ~ In c post ->
  ustrrchr (sto (encode (pre ++ c :: post))) (Z.of_N c) = Ok (Some (length (encode pre))).
Proof. intros. rewrite sto_term. destruct (last_char (pre ++ c :: post) c [0; 0; 0]) as [_ Q]; auto. apply (Q pre post); auto. Qed.
Lemma rrchr_absent : forall cs c, text cs -> ~ In c cs -> ustrrchr (sto (encode cs)) (Z.of_N c) = Ok None.
Proof. intros. rewrite sto_term. destruct (last_char cs c [0; 0; 0]) as [Q _]; auto. Qed.
Lemma root_empty : forall abs, empty_or_root (encode (render abs [])) = true.
Proof. intros []; reflexivity. Qed.
Lemma root_comps : forall abs l c, Forall text (l ++ [c]) -> Forall component (l ++ [c]) -> empty_or_root (encode (render abs (l ++ [c]))) = false.
Proof.
  intros abs l c Ht Hc. pose proof (text_render abs _ Ht) as T. apply Forall_app in Hc. destruct Hc as [_ Hc]. inversion Hc as [|? ? [C1 C2] _]; subst.
  assert (Hp : exists p, render abs (l ++ [c]) = p ++ c) by (rewrite render_snoc, app_assoc; eauto). destruct Hp as (p & Hp).
  destruct (encode (render abs (l ++ [c]))) as [|b [|b' t]] eqn:Ee; auto.
  - exfalso. revert Ee. apply encode_nonempty. rewrite Hp. intros F. apply app_eq_nil in F. tauto.
  - cbn. apply N.eqb_neq. intros ->. assert (Es : render abs (l ++ [c]) = [slash]).
    { apply encode_inj; auto. constructor; [apply slash_ok|constructor]. }
    rewrite Hp in Es. destruct p as [|x p]; cbn [app] in Es; [subst c; apply C2; left; auto|].
    injection Es as _ F. apply app_eq_nil in F. tauto.
Qed.
Lemma delete_last_ok : forall cs abs l c, text cs -> path_of cs abs (l ++ [c]) -> delete_last_path_component (encode cs) = Ok (encode (render abs l)).
Proof.
  intros cs abs l c Ht H. pose proof (path_components _ _ _ H) as Hc. pose proof (path_text _ _ _ H Ht) as Htt.
  unfold delete_last_path_component. rewrite (standardize_text cs abs (l ++ [c])) by auto. cbn [obind]. rewrite root_comps by auto.
  pose proof (text_render abs _ Htt) as T. apply Forall_app in Hc. destruct Hc as [_ Hc]. inversion Hc as [|? ? [C1 C2] _]; subst.
  change 47%Z with (Z.of_N slash).
  assert (Hdel : forall p q k, k = length (encode p) -> replace_bytes (encode (p ++ q)) k (length (encode (p ++ q)) - k) [] = Ok (encode p)).
  { intros p q k ->. unfold replace_bytes. rewrite encode_app, app_length.
    replace (length (encode p) + (length (encode p) + length (encode q) - length (encode p)))%nat with (length (encode p) + length (encode q))%nat by lia.
    rewrite Nat.leb_refl. rewrite skipn_all2 by (rewrite app_length; lia). rewrite firstn_app, Nat.sub_diag, firstn_all. cbn [firstn app]. rewrite !app_nil_r. auto. }
  rewrite render_snoc in *. destruct l as [|x l].
  - cbn [app] in *. destruct abs; cbn [app] in *.
    + change (slash :: c) with ([] ++ slash :: c). rewrite rrchr_found by auto. cbn [obind app].
      change (encode []) with (@nil N). cbn [length]. change (slash :: c) with ([slash] ++ c). apply Hdel. reflexivity.
    + rewrite rrchr_absent by auto. cbn [obind]. apply (Hdel [] c 0%nat). reflexivity.
  - assert (Ej : (if abs then [slash] else []) ++ (join [slash] (x :: l) ++ [slash]) ++ c = render abs (x :: l) ++ slash :: c).
    { unfold render. rewrite <- !app_assoc. auto. }
    rewrite Ej in *. rewrite rrchr_found by auto. cbn [obind].
    assert (Hn : length (encode (render abs (x :: l))) <> 0%nat).
    { intros F. apply length_zero_iff_nil in F. revert F. apply encode_nonempty. unfold render. intros F. apply app_eq_nil in F. destruct F as [_ F]. revert F. apply join_nonempty.
      pose proof (path_components _ _ _ H) as Hc'. cbn [app] in Hc'. inversion Hc' as [|? ? [Q _] _]. auto. }
    destruct (length (encode (render abs (x :: l)))) as [|k] eqn:Ek; [congruence|]. rewrite <- Ek. apply Hdel. auto.
Qed.
Lemma delete_last_root : forall cs abs, text cs -> path_of cs abs [] -> delete_last_path_component (encode cs) = Ok (encode (render abs [])).
Proof.
  intros cs abs Ht H. unfold delete_last_path_component. rewrite (standardize_text cs abs []) by auto. cbn [obind]. rewrite root_empty. auto.
Qed.

(** ** Extensions *)
Definition dot : N := 46.
Lemma extension_ok : forall cs abs l c e, text cs -> path_of cs abs (l ++ [c]) -> text e -> ~ In slash e -> ~ In dot e ->
  append_path_extension (encode cs) (encode e) = Ok (encode (render abs (l ++ [c ++ dot :: e]))) /\
  path_extension (encode (render abs (l ++ [c ++ dot :: e]))) = Ok (encode e) /\
  delete_path_extension (encode (render abs (l ++ [c ++ dot :: e]))) = Ok (encode (render abs (l ++ [c]))).
Proof.
  intros cs abs l c e Ht H He Hs Hd. pose proof (path_components _ _ _ H) as Hc. pose proof (path_text _ _ _ H Ht) as Htt.
  assert (Hdo : char_ok dot) by (unfold char_ok, scalar, dot; lia).
  assert (R : render abs (l ++ [c ++ dot :: e]) = render abs (l ++ [c]) ++ dot :: e) by (rewrite !render_snoc, <- !app_assoc; auto).
  assert (Hc2 : Forall component (l ++ [c ++ dot :: e])).
  { apply Forall_app in Hc. destruct Hc as [A B]. apply Forall_app. split; auto. inversion B as [|? ? [B1 B2] _]; subst. constructor; auto.
    split; [destruct c; discriminate|]. rewrite in_app_iff. intros [F|[F|F]]; auto. discriminate. }
  assert (Ht2 : Forall text (l ++ [c ++ dot :: e])).
  { apply Forall_app in Htt. destruct Htt as [A B]. apply Forall_app. split; auto. inversion B; subst. constructor; auto. apply text_app. split; auto. constructor; auto. }
  pose proof (text_render abs _ Ht2) as T2. pose proof (text_render abs _ Htt) as T1.
  assert (Hsl : exists o, ustrrchr (sto (encode (render abs (l ++ [c ++ dot :: e])))) (Z.of_N slash) = Ok o /\
    match o with Some k => (k < length (encode (render abs (l ++ [c]))))%nat | None => True end).
  { destruct (in_dec N.eq_dec slash (render abs (l ++ [c ++ dot :: e]))) as [F|F].
    - rewrite R in *. rewrite in_app_iff in F. destruct F as [F|[F|F]]; [|discriminate|tauto].
      assert (Q : exists a b, render abs (l ++ [c]) = a ++ slash :: b /\ ~ In slash b).
      { clear - F. remember (render abs (l ++ [c])) as s. clear Heqs. induction s as [|x s IH] using rev_ind; [destruct F|]. destruct (N.eq_dec x slash) as [->|Hx].
        - exists s, []. auto. - apply in_app_iff in F. destruct F as [F|[F|[]]]; [|congruence]. destruct (IH F) as (a & b & -> & Hb). exists a, (b ++ [x]). split; [rewrite <- app_assoc; auto|].
          rewrite in_app_iff. intros [G|[G|[]]]; auto. }
      destruct Q as (a & b & E & Hb). rewrite E in *. replace ((a ++ slash :: b) ++ dot :: e) with (a ++ slash :: (b ++ dot :: e)) in * by (rewrite <- app_assoc; auto).
      exists (Some (length (encode a))). split; [apply rrchr_found; auto|].
      + rewrite in_app_iff. intros [G|[G|G]]; auto. discriminate.
      + rewrite encode_app, encode_cons, !app_length. pose proof (utf8_nonempty slash). lia.
    - exists None. split; auto. apply rrchr_absent; auto. }
  destruct Hsl as (o & Eo & Ho).
  assert (Hdot : ustrrchr (sto (encode (render abs (l ++ [c ++ dot :: e])))) (Z.of_N dot) = Ok (Some (length (encode (render abs (l ++ [c])))))).
  { rewrite R in *. apply rrchr_found; auto. }
  assert (Ee : encode (render abs (l ++ [c ++ dot :: e])) = encode (render abs (l ++ [c])) ++ dot :: encode e) by (rewrite R, encode_app, encode_cons; reflexivity).
  split; [|split].
  - unfold append_path_extension. rewrite (standardize_text cs abs (l ++ [c])) by auto. cbn [obind]. rewrite root_comps by auto. f_equal. rewrite Ee, <- app_assoc. reflexivity.
  - unfold path_extension. change 46%Z with (Z.of_N dot). change 47%Z with (Z.of_N slash). rewrite Hdot. cbn [obind]. rewrite Eo. cbn [obind].
    assert (G : copy_bytes (sto (encode (render abs (l ++ [c ++ dot :: e])))) (length (encode (render abs (l ++ [c]))) + 1)
       (length (encode (render abs (l ++ [c ++ dot :: e]))) - (length (encode (render abs (l ++ [c]))) + 1)) = encode e).
    { unfold copy_bytes. rewrite Ee. unfold sto. set (p := encode (render abs (l ++ [c]))).
      replace ((p ++ dot :: encode e) ++ [0; 0; 0; 0]) with ((p ++ [dot]) ++ encode e ++ [0; 0; 0; 0]) by (rewrite <- !app_assoc; auto).
      replace (length p + 1)%nat with (length (p ++ [dot])) by (rewrite app_length; auto). rewrite skipn_len_app.
      rewrite !app_length. cbn [length]. replace (length p + S (length (encode e)) - (length p + 1))%nat with (length (encode e)) by lia.
      rewrite firstn_app, Nat.sub_diag, firstn_all. cbn [firstn]. apply app_nil_r. }
    destruct o as [k|]; [|f_equal; exact G]. replace (length (encode (render abs (l ++ [c]))) <? k)%nat with false by (symmetry; apply Nat.ltb_ge; lia). f_equal. exact G.
  - unfold delete_path_extension. rewrite (standardize_text (render abs (l ++ [c ++ dot :: e])) abs (l ++ [c ++ dot :: e])) by (auto; apply path_render; auto). cbn [obind].
    change 46%Z with (Z.of_N dot). change 47%Z with (Z.of_N slash). rewrite Hdot. cbn [obind]. rewrite Eo. cbn [obind].
    assert (G : replace_bytes (encode (render abs (l ++ [c ++ dot :: e]))) (length (encode (render abs (l ++ [c]))))
      (length (encode (render abs (l ++ [c ++ dot :: e]))) - length (encode (render abs (l ++ [c])))) [] = Ok (encode (render abs (l ++ [c])))).
    { rewrite Ee. unfold replace_bytes. set (p := encode (render abs (l ++ [c]))). rewrite app_length.
      replace (length p + (length p + length (dot :: encode e) - length p))%nat with (length p + length (dot :: encode e))%nat by lia.
      rewrite Nat.leb_refl. rewrite skipn_all2 by (rewrite app_length; lia). rewrite firstn_app, Nat.sub_diag, firstn_all. cbn [firstn app]. rewrite !app_nil_r. auto. }
    destruct o as [k|]; [|exact G]. replace (length (encode (render abs (l ++ [c]))) <? k)%nat with false by (symmetry; apply Nat.ltb_ge; lia). exact G.
Qed.
