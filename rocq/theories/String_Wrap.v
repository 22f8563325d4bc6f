(** Word wrapping of ASCII text. *)
Require Import Coq.ZArith.ZArith Coq.NArith.NArith Coq.Lists.List Coq.Bool.Bool Coq.Arith.Arith Coq.micromega.Lia.
Require Import Coq.micromega.ZifyN Coq.micromega.ZifyNat.
Require Import Verif.Base Verif.Array_Model Verif.Utf8_Model Verif.Utf8_Spec Verif.Utf8_Proofs Verif.Utf8_Strings Verif.String_Model Verif.String_Spec Verif.String_Proofs Verif.String_Lists.
Import ListNotations.
Local Open Scope N_scope.

Lemma words_sep_from : forall b, blank b = true -> forall a cur c, words_from cur (a ++ b :: c) = words_from cur a ++ words c.
Proof.
  intros b Hb. induction a as [|x a IH]; intros cur c; cbn [app words_from].
  - rewrite Hb. destruct cur; auto.
  - destruct (blank x); [destruct cur; cbn [app]; rewrite IH; auto|apply IH].
Qed.
Lemma words_sep : forall b a c, blank b = true -> words (a ++ b :: c) = words a ++ words c.
Proof. intros. apply words_sep_from. auto. Qed.
Definition ends_blank (l : list N) : Prop := l = [] \/ exists l' b, l = l' ++ [b] /\ blank b = true.
Lemma words_ends : forall l c, ends_blank l -> words (l ++ c) = words l ++ words c.
Proof.
  intros l c [->|(l' & b & -> & H)]; auto. rewrite <- app_assoc. cbn [app]. rewrite words_sep by auto.
  rewrite (words_sep b l' []) by auto. change (words []) with (@nil (list N)). rewrite app_nil_r. auto.
Qed.
Lemma words_pre : forall pre c, Forall (fun x => blank x = true) pre -> words (pre ++ c) = words c.
Proof. induction 1 as [|x pre H _ IH]; auto. cbn [app]. unfold words in *. cbn [words_from]. rewrite H. auto. Qed.
Lemma words_post : forall post c, Forall (fun x => blank x = true) post -> words (c ++ post) = words c.
Proof.
  intros post c H. destruct post as [|x post]; [rewrite app_nil_r; auto|]. inversion H; subst. rewrite words_sep by auto.
  rewrite <- (app_nil_r post), words_pre by auto. change (words []) with (@nil (list N)). apply app_nil_r.
Qed.
Lemma words_trimmed : forall cs mid, trimmed blank cs mid -> words mid = words cs.
Proof. intros cs mid (pre & post & -> & A & B & _). rewrite words_pre, words_post; auto. Qed.

Lemma isspace_blank : forall c, c < 256 -> c_isspace (Z.of_N c) = Ok (blank c).
Proof.
  intros c H. unfold c_isspace, blank.
  replace ((Z.of_N c =? -1)%Z || ((0 <=? Z.of_N c) && (Z.of_N c <=? 255))%Z) with true.
  - f_equal. f_equal; [f_equal|].
    + destruct (9 <=? c) eqn:E; [apply N.leb_le in E; apply Z.leb_le; lia|apply N.leb_gt in E; apply Z.leb_gt; lia].
    + destruct (c <=? 13) eqn:E; [apply N.leb_le in E; apply Z.leb_le; lia|apply N.leb_gt in E; apply Z.leb_gt; lia].
    + destruct (c =? 32) eqn:E; [apply N.eqb_eq in E; apply Z.eqb_eq; lia|apply N.eqb_neq in E; apply Z.eqb_neq; lia].
  - symmetry. apply orb_true_iff. right. apply andb_true_iff. split; apply Z.leb_le; lia.
Qed.
Lemma trim_ascii : forall l, ascii l -> exists mid, trim c_isspace l = Ok mid /\ trimmed blank l mid.
Proof.
  intros l H. destruct (trim_ok c_isspace blank l (ascii_text _ H)) as (mid & E & Ht).
  - intros c Hc. apply isspace_blank. unfold ascii in H. rewrite Forall_forall in H. specialize (H c Hc). cbv beta in H. lia.
  - exists mid. split; auto. rewrite ascii_encode in E by auto. rewrite E. rewrite ascii_encode; auto.
    destruct Ht as (pre & post & -> & _). apply ascii_app in H. destruct H as [_ H]. apply ascii_app in H. tauto.
Qed.

Lemma strcspn_ok : forall cs r, ~ In 0 cs ->
  exists w rest, cs = w ++ rest /\ strcspn (cs ++ 0 :: r) = Ok (length w) /\ Forall (fun c => wrap_stop c = false) w /\
    (rest = [] \/ exists c t, rest = c :: t /\ wrap_stop c = true).
Proof.
  induction cs as [|c cs IH]; intros r H0; cbn [app strcspn].
  - exists [], []. repeat split; auto.
  - assert (Hc : (c =? 0) = false) by (apply N.eqb_neq; intros ->; apply H0; left; auto). rewrite Hc. cbn [orb].
    destruct (wrap_stop c) eqn:E.
    + exists [], (c :: cs). repeat split; auto. right. eauto.
    + destruct (IH r) as (w & rest & -> & -> & A & B); [intros F; apply H0; right; auto|]. exists (c :: w), rest. repeat split; auto.
Qed.
Lemma strspn_ok : forall cs r, ~ In 0 cs ->
  exists w rest, cs = w ++ rest /\ strspn (cs ++ 0 :: r) = Ok (length w) /\ Forall (fun c => wrap_space c = true) w /\
    (rest = [] \/ exists c t, rest = c :: t /\ wrap_space c = false).
Proof.
  induction cs as [|c cs IH]; intros r H0; cbn [app strspn].
  - exists [], []. repeat split; auto.
  - destruct (wrap_space c) eqn:E.
    + destruct (IH r) as (w & rest & -> & -> & A & B); [intros F; apply H0; right; auto|]. exists (c :: w), rest. repeat split; auto.
    + exists [], (c :: cs). repeat split; auto. right. eauto.
Qed.
Lemma wrap_space_blank : forall c, wrap_space c = true -> blank c = true.
Proof. intros c H. unfold wrap_space in H. apply orb_true_iff in H. destruct H as [H|H]; apply N.eqb_eq in H; subst; reflexivity. Qed.
Lemma ustrnlen_ascii : forall w rest r, ascii (w ++ rest) -> ustrnlen ((w ++ rest) ++ 0 :: r) (length w) = Ok (length w).
Proof.
  intros w rest r H. destruct (length_and_index (w ++ rest) r (ascii_text _ H)) as (_ & _ & _ & Q).
  specialize (Q (length w)). rewrite firstn_app, Nat.sub_diag, firstn_all, app_nil_r in Q.
  rewrite !ascii_encode in Q by (auto; apply ascii_app in H; tauto). apply Q. rewrite app_length. lia.
Qed.
Lemma ascii_nz : forall cs, ascii cs -> ~ In 0 cs.
Proof. intros cs H F. unfold ascii in H. rewrite Forall_forall in H. apply H in F. lia. Qed.

(** A line of the result: short enough, or without a place to break. *)
Definition line_ok (glyphs : nat) (l : list N) : Prop := (length l <= glyphs)%nat \/ Forall (fun c => wrap_stop c = false) l.
Definition building (glyphs : nat) (line : list N) : Prop :=
  exists body sp, line = body ++ sp /\ Forall (fun c => blank c = true) sp /\ line_ok glyphs body.
Lemma building_trim : forall g line mid, building g line -> trimmed blank line mid -> line_ok g mid.
Proof.
  intros g line mid (body & sp & -> & Hs & Hb) (pre & post & E & _ & _ & _ & Hl).
  destruct mid as [|x mid'] using rev_ind; [right; constructor|]. clear IHmid'. specialize (Hl x mid' eq_refl).
  assert (Hlen : (length pre + length (mid' ++ [x]) <= length body)%nat).
  { destruct (le_lt_dec (length pre + length (mid' ++ [x])) (length body)) as [|F]; auto. exfalso.
    assert (Hn : nth_error (body ++ sp) (length pre + length mid') = Some x).
    { rewrite E. rewrite nth_error_app2 by lia. rewrite nth_error_app1 by (rewrite app_length; cbn; lia).
      rewrite nth_error_app2 by lia. replace (length pre + length mid' - length pre - length mid')%nat with 0%nat by lia. auto. }
    rewrite app_length in F. cbn [length] in F. rewrite nth_error_app2 in Hn by lia. apply nth_error_In in Hn. rewrite Forall_forall in Hs.
    apply Hs in Hn. congruence. }
  assert (Hin : exists t, body = pre ++ (mid' ++ [x]) ++ t).
  { exists (skipn (length pre + length (mid' ++ [x])) body). rewrite <- (firstn_skipn (length pre + length (mid' ++ [x])) body) at 1.
    rewrite app_assoc. f_equal. assert (F : firstn (length pre + length (mid' ++ [x])) (body ++ sp) = firstn (length pre + length (mid' ++ [x])) ((pre ++ mid' ++ [x]) ++ post)) by (rewrite E, <- !app_assoc; auto).
    rewrite firstn_app in F. replace (length pre + length (mid' ++ [x]) - length body)%nat with 0%nat in F by lia. cbn [firstn] in F. rewrite app_nil_r in F. rewrite F.
    rewrite <- app_length, firstn_app, Nat.sub_diag, firstn_all. cbn [firstn]. rewrite app_nil_r. auto. }
  destruct Hin as (t & ->). destruct Hb as [Hb|Hb].
  - left. rewrite !app_length in *. lia.
  - right. apply Forall_app in Hb. destruct Hb as [_ Hb]. apply Forall_app in Hb. tauto.
Qed.

Lemma wrap_loop_ok : forall g fuel cs line out r, ascii cs -> ~ In 13 cs -> ascii line ->
  cs = [] \/ ends_blank line -> building g line -> (length cs < fuel)%nat ->
  exists lines, wrap_loop fuel (cs ++ 0 :: r) line (length line) g out = Ok (out ++ lines) /\
    flat_map words lines = words (line ++ cs) /\ Forall (line_ok g) lines.
Proof.
  intros g. induction fuel as [|fuel IH]; intros cs line out r Ha Hcr Hla He Hb Hf; [lia|]. cbn [wrap_loop].
  assert (Hfl : forall o : list (list N), exists t, trim c_isspace line = Ok t /\ words t = words line /\ line_ok g t).
  { intros _. destruct (trim_ascii line Hla) as (t & E & Ht). exists t. split; auto. split; [apply words_trimmed; auto|eapply building_trim; eauto]. }
  destruct cs as [|c0 cs0].
  { cbn [app]. rewrite rd_term. cbn [obind N.eqb]. rewrite app_nil_r. destruct (0 <? length line)%nat eqn:El.
    - destruct (Hfl []) as (t & -> & Hw & Hok). cbn [obind]. exists [t]. cbn [flat_map]. rewrite app_nil_r. auto.
    - apply Nat.ltb_ge in El. destruct line; [|cbn in El; lia]. exists []. rewrite app_nil_r. auto. }
  destruct He as [He|He]; [discriminate|]. remember (c0 :: cs0) as cs eqn:Ecs.
  assert (Hrd : exists b, rd (cs ++ 0 :: r) 0 = Ok b /\ (b =? 0) = false).
  { apply rd_first; [|subst; congruence]. rewrite <- (ascii_encode cs) by auto. apply encode_cstring, ascii_text. auto. }
  destruct Hrd as (b & -> & Hb0). cbn [obind]. rewrite Hb0.
  destruct (strcspn_ok cs r (ascii_nz _ Ha)) as (w & rest & E & -> & Hw & Hrest). cbn [obind]. rewrite E in *.
  rewrite ustrnlen_ascii by auto. cbn [obind].
  apply ascii_app in Ha. destruct Ha as [Haw Har].
  (* the flush before the word *)
  assert (Hflush : exists line1 fl, (if (0 <? length line)%nat && (g <? length line + length w)%nat
      then do t <- trim c_isspace line; Ok (out ++ [t], [], 0%nat) else Ok (out, line, length line)) = Ok (out ++ fl, line1, length line1) /\
      ascii line1 /\ ends_blank line1 /\ flat_map words fl ++ words line1 = words line /\ Forall (line_ok g) fl /\ building g (line1 ++ w)).
  { destruct ((0 <? length line)%nat && (g <? length line + length w)%nat) eqn:Ec.
    - destruct (Hfl []) as (t & -> & Hwt & Hok). cbn [obind]. exists [], [t]. split; auto. split; [constructor|]. split; [left; auto|].
      split; [cbn [flat_map words words_from]; rewrite !app_nil_r; auto|]. split; auto. exists w, []. split; [rewrite app_nil_r; auto|]. split; auto. right. auto.
    - exists line, []. split; [rewrite app_nil_r; auto|]. split; auto. split; auto. split; auto. split; auto.
      apply andb_false_iff in Ec. destruct Ec as [Ec|Ec]; apply Nat.ltb_ge in Ec.
      + destruct line; [|cbn in Ec; lia]. exists w, []. split; [rewrite app_nil_r; auto|]. split; auto. right. auto.
      + exists (line ++ w), []. split; [rewrite app_nil_r; auto|]. split; auto. left. rewrite app_length. lia. }
  destruct Hflush as (line1 & fl & -> & A1 & A2 & A3 & A4 & A5). cbn [obind].
  replace (firstn (length w) ((w ++ rest) ++ 0 :: r)) with w by (rewrite <- app_assoc, firstn_app, Nat.sub_diag, firstn_all, app_nil_r; auto).
  rewrite <- app_assoc, skipn_len_app.
  assert (Hla' : ascii (line1 ++ w)) by (apply ascii_app; auto).
  rewrite <- (app_length line1 w).
  assert (Hws : words (line ++ w ++ rest) = flat_map words fl ++ words ((line1 ++ w) ++ rest)).
  { rewrite words_ends by auto. rewrite <- A3, <- app_assoc. f_equal. rewrite <- app_assoc. symmetry. apply words_ends. auto. }
  destruct Hrest as [->|(c & t & -> & Hc)].
  - cbn [app]. rewrite rd_term. cbn [obind N.eqb]. cbn [strspn].
    replace (wrap_space 0) with false by reflexivity. cbn [obind skipn firstn]. rewrite app_nil_r, Nat.add_0_r.
    rewrite !app_nil_r in *. destruct (IH [] (line1 ++ w) (out ++ fl) r) as (lines & E1 & E2 & E3); auto; [cbn; subst; cbn in Hf; lia|].
    cbn [app] in E1. exists (fl ++ lines). rewrite E1, app_assoc. split; auto. split; [|apply Forall_app; auto].
    rewrite flat_map_app, E2, app_nil_r. auto.
  - cbn [app]. rewrite rd_0. cbn [obind].
    assert (c <> 13) by (intros ->; apply Hcr; apply in_app_iff; right; left; auto).
    replace (c =? 13) with false by (symmetry; apply N.eqb_neq; auto).
    assert (Hct : ascii t /\ ~ In 13 t /\ (length t < fuel)%nat).
    { split; [inversion Har; auto|]. split; [intros F; apply Hcr; apply in_app_iff; right; right; auto|]. rewrite app_length in Hf. cbn in Hf. lia. }
    destruct Hct as (T1 & T2 & T3).
    destruct (c =? 10) eqn:E10.
    + apply N.eqb_eq in E10. subst c. cbn [skipn].
      assert (Hfl2 : exists fl2, (if (0 <? length (line1 ++ w))%nat then do t0 <- trim c_isspace (line1 ++ w); Ok ((out ++ fl) ++ [t0], [], 0%nat)
          else Ok (out ++ fl, line1 ++ w, length (line1 ++ w))) = Ok ((out ++ fl) ++ fl2, [], 0%nat) /\ flat_map words fl2 = words (line1 ++ w) /\ Forall (line_ok g) fl2).
      { destruct (0 <? length (line1 ++ w))%nat eqn:El.
        - destruct (trim_ascii _ Hla') as (t0 & -> & Ht). cbn [obind]. exists [t0]. split; auto. split.
          + cbn [flat_map]. rewrite app_nil_r. apply words_trimmed. auto.
          + constructor; auto. eapply building_trim; eauto.
        - apply Nat.ltb_ge in El. destruct (line1 ++ w); [|cbn in El; lia]. exists []. rewrite app_nil_r. auto. }
      destruct Hfl2 as (fl2 & -> & F1 & F2). cbn [obind].
      destruct (IH t [] (((out ++ fl) ++ fl2) ++ [[]]) r) as (lines & E1 & E2 & E3); auto.
      { constructor. } { right. left. auto. } { exists [], []. repeat split; auto. right. constructor. }
      cbn [app length] in E1. exists (fl ++ fl2 ++ [[]] ++ lines). rewrite E1. rewrite <- !app_assoc. split; auto. split.
      * rewrite Hws, !flat_map_app, E2, F1. cbn [flat_map]. rewrite (words_sep 10) by reflexivity. auto.
      * repeat (apply Forall_app; split; auto). constructor; auto. right. constructor.
    + destruct (strspn_ok (c :: t) r) as (s & rest & Es & Ep & Hs & Hr); [apply ascii_nz; auto|]. cbn [app] in Ep. rewrite Ep. cbn [obind].
      assert (Hsp : wrap_space c = true).
      { unfold wrap_stop in Hc. unfold wrap_space. replace (c =? 13) with false in Hc by (symmetry; apply N.eqb_neq; auto). rewrite E10 in Hc.
        destruct (c =? 32), (c =? 9); auto. }
      assert (Hsn : s <> []).
      { destruct Hr as [->|(c' & t' & -> & Hc')]; [rewrite app_nil_r in Es; congruence|]. intros ->. cbn in Es. inversion Es. congruence. }
      rewrite app_comm_cons, Es, <- app_assoc, skipn_len_app, firstn_app, Nat.sub_diag, firstn_all. cbn [firstn]. rewrite app_nil_r. rewrite <- (app_length (line1 ++ w) s).
      rewrite Es in Har. apply ascii_app in Har. destruct Har as [Has Har].
      assert (Hbs : Forall (fun c => blank c = true) s) by (eapply Forall_impl; [|exact Hs]; intros; apply wrap_space_blank; auto).
      destruct (IH rest ((line1 ++ w) ++ s) (out ++ fl) r) as (lines & E1 & E2 & E3); auto.
      * intros F. apply Hcr. rewrite Es. rewrite !in_app_iff. auto.
      * apply ascii_app. auto.
      * right. right. destruct s as [|x s _] using rev_ind; [congruence|]. exists ((line1 ++ w) ++ s), x. split; [rewrite <- !app_assoc; auto|].
        apply Forall_app in Hbs. destruct Hbs as [_ Hbs]. inversion Hbs; auto.
      * destruct A5 as (body & sp & B1 & B2 & B3). exists body, (sp ++ s). rewrite B1, <- app_assoc. split; auto. split; auto. apply Forall_app. auto.
      * assert (length (c :: t) = length (s ++ rest)) by congruence. rewrite app_length in *. cbn [length] in *. destruct s; [congruence|cbn in *; lia].
      * exists (fl ++ lines). rewrite E1, app_assoc. split; auto. split; [|apply Forall_app; auto].
        rewrite Es in Hws. rewrite Hws, flat_map_app, E2, <- !app_assoc. auto.
Qed.
Lemma wrap_ok : forall cs g, ascii cs -> ~ In 13 cs ->
  exists lines, wrap cs g = Ok lines /\ flat_map words lines = words cs /\
    Forall (fun l => (length l <= g)%nat \/ (~ In 32 l /\ ~ In 9 l /\ ~ In 10 l)) lines.
Proof.
  intros cs g H1 H2. unfold wrap. rewrite sto_term.
  destruct (wrap_loop_ok g (S (length cs)) cs [] [] [0; 0; 0]) as (lines & E1 & E2 & E3); auto.
  - constructor. - right. left. auto. - exists [], []. repeat split; auto. right. constructor.
  - exists lines. split; auto. split; auto. eapply Forall_impl; [|exact E3]. intros l [H|H]; auto. right. rewrite Forall_forall in H.
    repeat split; intros F; apply H in F; discriminate.
Qed.
(** A carriage return between words joins them; a word with characters of more
    than one byte is broken inside a character. *)
Lemma wrap_return_refuted : exists cs g lines, ascii cs /\ wrap cs g = Ok lines /\ flat_map words lines <> words cs.
Proof. exists [97; 13; 98], 80%nat, [[97; 98]]. split; [repeat constructor|]. split; [vm_compute; auto|discriminate]. Qed.
Lemma wrap_multibyte_refuted : exists cs g lines, text cs /\ wrap (encode cs) g = Ok lines /\ exists l, In l lines /\ forall t, text t -> encode t <> l.
Proof.
  exists [0xe9; 0xe9], 1%nat, [[0xc3; 0xa9]; [0xc3]; [0xa9]]. split.
  - repeat (constructor; [split; [split; [discriminate|intros [A B]; vm_compute in A; congruence]|discriminate]|]). constructor.
  - split; [vm_compute; auto|]. exists [0xc3]. split; [cbn; auto|]. intros t Ht E. apply scans_encode in Ht. rewrite E in Ht.
    remember [0xc3] as s eqn:Es. remember (map Z.of_N t) as ws eqn:Ew. destruct Ht as [|s z n zs A B C D F]; [discriminate|].
    subst s. specialize (C []). vm_compute in C. inversion C. subst z. destruct t as [|x t]; cbn [map] in Ew; [discriminate|]. injection Ew. lia.
Qed.
