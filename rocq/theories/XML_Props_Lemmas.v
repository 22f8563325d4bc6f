(** The statements of the properties of XML, from those about results. *)
Require Import Coq.ZArith.ZArith Coq.NArith.NArith Coq.Lists.List Coq.Bool.Bool Coq.micromega.Lia Coq.micromega.ZifyBool Coq.micromega.ZifyN.
Require Import Verif.Base Verif.XML_Model Verif.XML_Spec Verif.XML_Machine Verif.XML_Forward Verif.XML_Forward2 Verif.XML_Backward Verif.XML_Backward2 Verif.XML_Memory Verif.XML_Final Verif.XML_Final2 Verif.XML_Describe.
Import ListNotations.
Local Open Scope N_scope.

Lemma sp_is_spacelike : spacelike (fun ch => Ok (((9 <=? ch) && (ch <=? 13))%Z || (ch =? 32)%Z)).
Proof. intros b Hb. f_equal. unfold to_char, blank. destruct (b <? 128) eqn:E; lia. Qed.
Lemma small_document : forall isspace report fuel text t, spacelike isspace -> ok text -> (0 < fuel)%nat -> 2 * N.of_nat (length text) < 16384 ->
  is_document (unix_lines (before_nul text)) t -> exists h e, parse isspace report fuel text = Ok (Some (h, e)) /\ is_tree h e t.
Proof. intros isspace report fuel text t Hs Hok Hf Hl Ht. apply result_iff in Ht; [|exact Hok]. now apply small_parse. Qed.
Lemma ok_mid : forall a r b, ok a -> ok r -> ok b -> ok (a ++ r ++ b).
Proof. intros a r b Ha Hr Hb. apply Forall_app. split; [exact Ha|]. apply Forall_app. now split. Qed.
Ltac bytes_ok := repeat (apply Forall_cons; [lia|]); apply Forall_nil.
Lemma value_reference : forall isspace report fuel r, spacelike isspace -> ok r -> ~ In 59 r -> ~ In 0 r -> ~ In 13 r ->
  (forall h e, parse isspace report fuel ([60; 97; 32; 98; 61; 34; 38] ++ r ++ [59; 34; 47; 62]) = Ok (Some (h, e)) ->
    exists c, reference r c /\ is_tree h e (Elem [97] [([98], utf8 c)] [])) /\
  (parse isspace report fuel ([60; 97; 32; 98; 61; 34; 38] ++ r ++ [59; 34; 47; 62]) = Ok None -> forall c, ~ reference r c).
Proof.
  intros isspace report fuel r Hs Hok H1 H2 H3. assert (Ho : ok (ref_value_text r)) by (apply ok_mid; [bytes_ok|exact Hok|bytes_ok]). split.
  - intros h e H. destruct (parse_says _ _ _ _ _ Hs Ho H) as (t & Hr & Ht). apply ref_value_result in Hr; try assumption. destruct Hr as (c & Hc & ->). eauto.
  - intros H c Hc. pose proof (parse_says _ _ _ _ _ Hs Ho H) as Hr. cbv beta iota in Hr.
    assert (X : result (ref_value_text r) = Some (Elem [97] [([98], utf8 c)] [])) by (apply ref_value_result; eauto). congruence.
Qed.
Lemma text_reference : forall isspace report fuel r, spacelike isspace -> ok r -> ~ In 59 r -> ~ In 0 r -> ~ In 13 r ->
  (forall h e, parse isspace report fuel ([60; 97; 62; 38] ++ r ++ [59; 60; 47; 97; 62]) = Ok (Some (h, e)) ->
    exists c, reference r c /\ is_tree h e (Elem [97] [] (if (c <? 128) && blank c then [] else [Text (utf8 c)]))) /\
  (parse isspace report fuel ([60; 97; 62; 38] ++ r ++ [59; 60; 47; 97; 62]) = Ok None -> forall c, ~ reference r c).
Proof.
  intros isspace report fuel r Hs Hok H1 H2 H3. assert (Ho : ok (ref_content_text r)) by (apply ok_mid; [bytes_ok|exact Hok|bytes_ok]). split.
  - intros h e H. destruct (parse_says _ _ _ _ _ Hs Ho H) as (t & Hr & Ht). apply ref_content_result in Hr; try assumption. destruct Hr as (c & Hc & ->). eauto.
  - intros H c Hc. pose proof (parse_says _ _ _ _ _ Hs Ho H) as Hr. cbv beta iota in Hr.
    assert (X : result (ref_content_text r) = Some (Elem [97] [] (if (c <? 128) && blank c then [] else [Text (utf8 c)]))) by (apply ref_content_result; eauto). congruence.
Qed.
Lemma reference_ok : forall r c, reference r c -> ok r.
Proof.
  intros r c (H & _). destruct H as [| | | | |ds _ H|ds _ H]; try bytes_ok.
  - apply Forall_cons; [lia|]. eapply Forall_impl; [|exact H]. unfold digit. intros b Hb. cbv beta in *. lia.
  - apply Forall_cons; [lia|]. apply Forall_cons; [lia|]. eapply Forall_impl; [|exact H]. unfold hexdigit, digit. intros b Hb. cbv beta in *. lia.
Qed.
Lemma references_accepted : forall isspace report fuel r c, spacelike isspace -> reference r c -> (0 < fuel)%nat ->
  (exists h e, parse isspace report fuel ([60; 97; 32; 98; 61; 34; 38] ++ r ++ [59; 34; 47; 62]) = Ok (Some (h, e)) /\ is_tree h e (Elem [97] [([98], utf8 c)] [])) /\
  (exists h e, parse isspace report fuel ([60; 97; 62; 38] ++ r ++ [59; 60; 47; 97; 62]) = Ok (Some (h, e)) /\
    is_tree h e (Elem [97] [] (if (c <? 128) && blank c then [] else [Text (utf8 c)]))).
Proof.
  intros isspace report fuel r c Hs Hr Hf. pose proof (reference_value _ _ Hr) as [_ Hall]. pose proof (ref_no_semicolon _ _ Hr) as H59.
  assert (Hok : ok r) by now apply (reference_ok r c).
  assert (H0 : ~ In 0 r) by (intros X; rewrite Forall_forall in Hall; apply Hall in X; discriminate X).
  assert (H13 : ~ In 13 r) by (intros X; rewrite Forall_forall in Hall; apply Hall in X; discriminate X).
  pose proof Hr as (_ & Hl & _). split; apply small_parse; try assumption.
  - apply ok_mid; [bytes_ok|exact Hok|bytes_ok].
  - rewrite !app_length. cbn [length]. lia.
  - apply (ref_value_result r); eauto.
  - apply ok_mid; [bytes_ok|exact Hok|bytes_ok].
  - rewrite !app_length. cbn [length]. lia.
  - apply (ref_content_result r); eauto.
Qed.
Lemma parse_shaped : forall isspace report fuel text h e, spacelike isspace -> ok text -> parse isspace report fuel text = Ok (Some (h, e)) -> exists t, is_tree h e t /\ everywhere shaped t.
Proof. intros isspace report fuel text h e Hs Hok H. destruct (proj1 (sound_parse isspace report fuel text Hs Hok) h e H) as (t & Hd & Ht). exists t. split; [exact Ht|]. now apply document_shaped in Hd. Qed.
Lemma parse_tight : forall isspace report fuel text h e, spacelike isspace -> ok text -> no_bracket_blank (unix_lines (before_nul text)) ->
  parse isspace report fuel text = Ok (Some (h, e)) -> exists t, is_tree h e t /\ everywhere tight t.
Proof. intros isspace report fuel text h e Hs Hok Hb H. destruct (proj1 (sound_parse isspace report fuel text Hs Hok) h e H) as (t & Hd & Ht). exists t. split; [exact Ht|]. now apply document_tight in Hd. Qed.
Lemma described_parsed : forall h e t, everywhere sayable t -> is_tree h e t -> exists m d, (forall fuel, (m <= fuel)%nat -> describe fuel h e 0 = Ok d) /\
  forall isspace report fuel, spacelike isspace -> (forall m args, report m args = Ok tt) -> (2 * length d < fuel)%nat ->
    exists h' e', parse isspace report fuel d = Ok (Some (h', e')) /\ is_tree h' e' (respaced t).
Proof.
  intros h e t Ht He. destruct (described t h e Ht He) as (m & d & Hd & Hok & Hr). exists m, d. split; [exact Hd|]. intros isspace report fuel Hs Hq Hf.
  destruct (parse_result isspace report Hs Hq fuel d Hok) as [[_ H]|H]; [lia|]. now rewrite Hr in H.
Qed.
Lemma respace_blank : forall s, blank (last (respace s) 32) = true.
Proof. intros s. unfold respace. destruct (blank (last s 32)) eqn:E; [exact E|]. now rewrite last_last. Qed.
Lemma respace_twice : forall s, respace (respace s) = respace s.
Proof. intros s. unfold respace at 1. now rewrite respace_blank. Qed.
Definition respaced_i (i : item) : item := match i with Text s => Text (respace s) | Sub t => Sub (respaced t) end.
Lemma respaced_elem : forall n a k, respaced (Elem n a k) = Elem n a (map respaced_i k).
Proof. reflexivity. Qed.
Lemma respaced_twice : forall t, respaced (respaced t) = respaced t.
Proof.
  intros t. induction t as [n a k IH] using tree_all. rewrite !respaced_elem, map_map. f_equal. apply map_ext_in. intros [s|t] Hi; cbn [respaced_i]; [now rewrite respace_twice|now rewrite IH].
Qed.
Lemma respace_add : forall s, s <> [] -> respace s = add_to false s 32.
Proof. reflexivity. Qed.
Lemma respaced_apart : forall k, texts_apart k -> texts_apart (map respaced_i k).
Proof.
  intros k H a s s' b E. apply map_eq_app in E. destruct E as (k1 & k2 & -> & _ & E). destruct k2 as [|[x|x] k2]; try discriminate E. cbn [map respaced_i app] in E. injection E as _ E.
  destruct k2 as [|[y|y] k2]; try discriminate E. apply (H k1 x y k2). reflexivity.
Qed.
Lemma respaced_sayable : forall t, everywhere sayable t -> everywhere sayable (respaced t).
Proof.
  intros t. induction t as [n a k IH] using tree_all. intros Ht. inversion Ht as [? ? ? (Hn & Hd & Ha & Hap & Htx) Hs]; subst. rewrite respaced_elem. constructor.
  - split; [exact Hn|]. split; [exact Hd|]. split; [exact Ha|]. split; [now apply respaced_apart|]. intros s X. apply in_map_iff in X. destruct X as ([u|u] & E & Hu); [|discriminate E].
    cbn [respaced_i] in E. injection E as <-. destruct (Htx u Hu) as (U1 & U2 & U3 & U4). split; [|split; [|split]].
    + unfold respace. destruct (blank (last u 32)); [exact U1|]. now destruct u.
    + unfold respace. destruct (blank (last u 32)); [exact U2|]. now destruct u.
    + rewrite respace_add by exact U1. now apply collapsed_add.
    + unfold respace. destruct (blank (last u 32)); [exact U4|]. apply Forall_app. split; [exact U4|]. constructor; [|constructor]. unfold plain_byte. lia.
  - intros u X. apply in_map_iff in X. destruct X as ([s|v] & E & Hv); [discriminate E|]. cbn [respaced_i] in E. injection E as <-. apply IH; [exact Hv|]. now apply Hs.
Qed.
Lemma described_again : forall h e t, everywhere sayable t -> is_tree h e (respaced t) -> exists m d, (forall fuel, (m <= fuel)%nat -> describe fuel h e 0 = Ok d) /\
  forall isspace report fuel, spacelike isspace -> (forall m args, report m args = Ok tt) -> (2 * length d < fuel)%nat ->
    exists h' e', parse isspace report fuel d = Ok (Some (h', e')) /\ is_tree h' e' (respaced t).
Proof.
  intros h e t Ht He. destruct (described_parsed h e (respaced t) (respaced_sayable t Ht) He) as (m & d & Hd & H). exists m, d. split; [exact Hd|]. now rewrite respaced_twice in H.
Qed.
Lemma collapsed_short : forall s, forallb (fun b => negb (blank b) || (b =? 32)) s = true -> (fix go (p : bool) s := match s with [] => true | b :: s' => negb (p && blank b) && go (blank b) s' end) false s = true -> collapsed s.
Proof.
  intros s H1 H2. split.
  - intros a x y b -> Hx. clear H1. destruct (blank y) eqn:Ey; [exfalso|reflexivity]. revert H2. generalize false as p. induction a as [|z a IH]; intros p H2; cbn [app] in H2.
    + rewrite Hx, Ey in H2. rewrite !andb_true_iff in H2. destruct H2 as (_ & H2 & _). discriminate H2.
    + apply andb_true_iff in H2. destruct H2 as [_ H2]. exact (IH _ H2).
  - intros b Hb Hbl. rewrite forallb_forall in H1. specialize (H1 b Hb). rewrite Hbl in H1. now apply N.eqb_eq in H1.
Qed.
Lemma describe_case : let t := Elem [97] [([98], [39; 62])] [Text [120; 32; 121]; Sub (Elem [99] [] []); Text [195; 169; 32]] in everywhere sayable t /\ exists h, is_tree h 0 t /\
  describe 3 h 0 0 = Ok ([60; 97; 32; 98; 61; 34; 39; 62; 34; 62; 10; 32; 32; 120; 32; 121; 10; 32; 32; 60; 99; 62; 10; 32; 32; 60; 47; 99; 62; 10; 32; 32; 195; 169; 32; 10; 60; 47; 97; 62; 10]).
Proof.
  intros t. assert (Hname : forall b, letter b -> is_a_name [b] /\ Forall (fun b => b < 256) [b]).
  { intros b Hb. split; [split; [now left|constructor]|]. constructor; [|constructor]. unfold letter in Hb. lia. }
  split.
  - constructor.
    + split; [apply Hname; unfold letter; lia|]. split; [constructor; [intros []|constructor]|]. split.
      { constructor; [|constructor]. split; [apply Hname; unfold letter; cbn; lia|]. cbn [snd]. unfold plain_byte. repeat (apply Forall_cons; [lia|]). apply Forall_nil. }
      split. { intros a s s' b E. destruct a as [|x a]; [discriminate E|]. destruct a as [|y a]; [discriminate E|]. destruct a as [|z a]; [discriminate E|]. destruct a; discriminate E. }
      intros s [E|[E|[E|[]]]]; try discriminate E; injection E as <-; (split; [discriminate|]); (split; [reflexivity|]); (split; [apply collapsed_short; reflexivity|]);
        unfold plain_byte; repeat (apply Forall_cons; [lia|]); apply Forall_nil.
    + intros u [E|[E|[E|[]]]]; try discriminate E. injection E as <-. constructor; [|intros v []]. split; [apply Hname; unfold letter; lia|]. split; [constructor|]. split; [constructor|].
      split; [intros [|x a] s s' b E; discriminate E|intros s []].
  - exists [mkE [97] [([98], [39; 62])] [CText [120; 32; 121]; CElement 1; CText [195; 169; 32]]; mkE [99] [] []]. split; [|vm_compute; reflexivity].
    econstructor; [reflexivity|]. constructor. constructor; [econstructor; [reflexivity|constructor]|]. repeat constructor.
Qed.
Lemma describe_text : exists h t d h', is_tree h 0 t /\ everywhere sayable t /\ describe 2 h 0 0 = Ok d /\
  parse (fun ch => Ok (((9 <=? ch) && (ch <=? 13))%Z || (ch =? 32)%Z)) (fun _ _ => Ok tt) 1 d = Ok (Some (h', 0%nat)) /\ ~ is_tree h' 0 t.
Proof.
  exists [mkE [97] [] [CText [120]]], (Elem [97] [] [Text [120]]). eexists. eexists. split; [econstructor; [reflexivity|repeat constructor]|]. split.
  - constructor.
    + split; [split; [split; [left; right; lia|constructor]|constructor; [lia|constructor]]|]. split; [constructor|]. split; [constructor|].
      split; [intros [|x [|y a]] s s' b E; discriminate E|]. intros s [E|[]]. injection E as <-. split; [discriminate|]. split; [reflexivity|]. split; [apply collapsed_short; reflexivity|].
      constructor; [unfold plain_byte; lia|constructor].
    + intros u [E|[]]. discriminate E.
  - split; [vm_compute; reflexivity|]. split; [vm_compute; reflexivity|]. intros H. inversion H as [? ? ? ks ? Hn Hk]; subst. cbn in Hn. injection Hn as <-. inversion Hk.
Qed.
