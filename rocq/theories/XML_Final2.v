(** The statements about DKXMLParse behind the properties. *)
Require Import Coq.ZArith.ZArith Coq.NArith.NArith Coq.Lists.List Coq.Bool.Bool Coq.micromega.Lia Coq.micromega.ZifyBool Coq.micromega.ZifyN.
Require Import Verif.Base Verif.XML_Model Verif.XML_Spec Verif.XML_Machine Verif.XML_Forward Verif.XML_Forward2 Verif.XML_Backward Verif.XML_Backward2 Verif.XML_Memory Verif.XML_Relation Verif.XML_Simulates Verif.XML_Final Verif.XML_Describe.
Import ListNotations.
Local Open Scope N_scope.

(** Whatever the reports do, what is returned is what would be returned with reports that
    succeed. *)
Definition quiet : list N -> list Verif.Stream_Model.arg -> outcome unit := fun _ _ => Ok tt.
Lemma handle_quiet : forall isspace report s r v, handle isspace report s r = Ok v -> handle isspace quiet s r = Ok v.
Proof.
  intros isspace report s r v H. destruct r; try exact H; unfold handle in H |- *;
    match type of H with context [report ?m ?a] => destruct (report m a); try discriminate H end; exact H.
Qed.
Lemma loop_quiet : forall isspace report text s a, loop isspace report s text = Ok a -> loop isspace quiet s text = Ok a.
Proof.
  intros isspace report text. induction text as [|b text IH]; intros s a H.
  - cbn [loop] in *. destruct (eof (parser s)); try exact H; destruct (report text_of_incomplete []); try discriminate H; exact H.
  - cbn [loop] in *. destruct (b =? 0).
    { destruct (eof (parser s)); try exact H; destruct (report text_of_incomplete []); try discriminate H; exact H. }
    destruct (parse_byte (parser s) b) as [[x r]| | |]; try discriminate H. cbn [obind fst snd] in *.
    destruct (handle isspace report (mkS x (heap s) (root s) (estack s) (attrvalue s)) r) as [o| | |] eqn:E; try discriminate H.
    rewrite (handle_quiet _ _ _ _ _ E). cbn [obind] in *. destruct o as [s'|]; [now apply IH|exact H].
Qed.
Lemma sizes_quiet : forall isspace report fuel text size v, parse_sizes isspace report fuel text size = Ok v -> parse_sizes isspace quiet fuel text size = Ok v.
Proof.
  intros isspace report fuel. induction fuel as [|fuel IH]; intros text size v H; [discriminate H|]. cbn [parse_sizes] in *. unfold try_parse in *.
  destruct (init size) as [x| | |]; try discriminate H. cbn [obind] in *.
  destruct (loop isspace report (mkS x [] None [] None) text) as [a| | |] eqn:E; try discriminate H. rewrite (loop_quiet _ _ _ _ _ E). cbn [obind] in *.
  destruct a; auto.
Qed.
Lemma parse_quiet : forall isspace report fuel text v, parse isspace report fuel text = Ok v -> parse isspace quiet fuel text = Ok v.
Proof. intros isspace report fuel [|b text] v H; [exact H|]. now apply (sizes_quiet _ report). Qed.
Lemma parse_says : forall isspace report fuel text v, spacelike isspace -> ok text -> parse isspace report fuel text = Ok v ->
  match v with
  | Some (h, e) => exists t, result text = Some t /\ is_tree h e t
  | None => result text = None
  end.
Proof.
  intros isspace report fuel text v Hs Hok H. apply parse_quiet in H.
  destruct (parse_result isspace quiet Hs ltac:(reflexivity) fuel text Hok) as [[E _]|E]; [congruence|].
  destruct (result text) as [t|].
  - destruct E as (h & e & E & Ht). rewrite E in H. injection H as <-. eauto.
  - rewrite E in H. injection H as <-. reflexivity.
Qed.
(** Memory. *)
Lemma parse_safe : forall isspace report fuel text, spacelike isspace -> (forall m args, report m args = Ok tt) -> ok text ->
  (2 * length text < fuel)%nat -> exists v, parse isspace report fuel text = Ok v.
Proof.
  intros isspace report fuel text Hs Hr Hok Hf. destruct (parse_result isspace report Hs Hr fuel text Hok) as [[_ H]|H]; [lia|].
  destruct (result text); [destruct H as (h & e & H & _)|]; eauto.
Qed.
Lemma exact_parse : forall isspace report fuel text, spacelike isspace -> (forall m args, report m args = Ok tt) -> ok text -> (2 * length text < fuel)%nat ->
  (forall t, is_document (unix_lines (before_nul text)) t -> exists h e, parse isspace report fuel text = Ok (Some (h, e)) /\ is_tree h e t) /\
  ((forall t, ~ is_document (unix_lines (before_nul text)) t) -> parse isspace report fuel text = Ok None).
Proof.
  intros isspace report fuel text Hs Hr Hok Hf. destruct (parse_result isspace report Hs Hr fuel text Hok) as [[_ H]|H]; [lia|]. split.
  - intros t Ht. apply result_iff in Ht; [|assumption]. rewrite Ht in H. exact H.
  - intros Hn. destruct (result text) as [t|] eqn:E; [|exact H]. exfalso. apply (Hn t). now apply result_iff.
Qed.
Lemma sound_parse : forall isspace report fuel text, spacelike isspace -> ok text ->
  (forall h e, parse isspace report fuel text = Ok (Some (h, e)) -> exists t, is_document (unix_lines (before_nul text)) t /\ is_tree h e t) /\
  (parse isspace report fuel text = Ok None -> forall t, ~ is_document (unix_lines (before_nul text)) t).
Proof.
  intros isspace report fuel text Hs Hok. split.
  - intros h e H. destruct (parse_says _ _ _ _ _ Hs Hok H) as (t & Hr & Ht). exists t. split; [|exact Ht]. now apply result_iff.
  - intros H t Ht. apply result_iff in Ht; [|assumption]. pose proof (parse_says _ _ _ _ _ Hs Hok H). congruence.
Qed.

(** Trees are determined by the elements. *)
Scheme is_tree_min := Minimality for is_tree Sort Prop with are_items_min := Minimality for are_items Sort Prop.
Combined Scheme is_tree_items_min from is_tree_min, are_items_min.
Lemma tree_unique : forall h, (forall e t, is_tree h e t -> forall t', is_tree h e t' -> t = t') /\ (forall ks k, are_items h ks k -> forall k', are_items h ks k' -> k = k').
Proof.
  intros h. apply is_tree_items_min.
  - intros e n a ks k Hn _ IH t' Ht'. inversion Ht' as [? n' a' ks' k' Hn' Hk']; subst. rewrite Hn in Hn'. injection Hn' as <- <- <-. f_equal. auto.
  - intros k' H. now inversion H.
  - intros s ks k _ IH k' H. inversion H; subst. f_equal. auto.
  - intros e t ks k _ IH1 _ IH2 k' H. inversion H; subst. f_equal; [f_equal|]; auto.
Qed.
Lemma try_says : forall isspace report text size a, spacelike isspace -> ok text -> (0 < size)%nat -> try_parse isspace report text size = Ok a ->
  match a with
  | Parsed h e => exists t, result text = Some t /\ is_tree h e t
  | Rejected => result text = None
  | Again => (size <= 2 * length text)%nat
  end.
Proof.
  intros isspace report text size a Hs Hok Hsz H.
  assert (H' : try_parse isspace quiet text size = Ok a).
  { unfold try_parse in *. destruct (init size) as [x| | |]; try discriminate H. cbn [obind] in *. now apply (loop_quiet _ report). }
  unfold result. rewrite <- (proj1 (lines_unix text)). destruct (try_ok isspace quiet Hs ltac:(reflexivity) text size Hok Hsz) as [[E Hle]|E].
  - rewrite E in H'. injection H' as <-. exact Hle.
  - destruct (arun start (lines false text)) as [t|].
    + destruct E as (h & e & E & Ht). rewrite E in H'. injection H' as <-. eauto.
    + rewrite E in H'. injection H' as <-. reflexivity.
Qed.
Lemma size_free : forall isspace report text size size', spacelike isspace -> ok text -> (0 < size)%nat -> (0 < size')%nat ->
  (forall h e h' e' t, try_parse isspace report text size = Ok (Parsed h e) -> try_parse isspace report text size' = Ok (Parsed h' e') -> is_tree h e t -> is_tree h' e' t) /\
  ~ ((exists h e, try_parse isspace report text size = Ok (Parsed h e)) /\ try_parse isspace report text size' = Ok Rejected) /\
  ((2 * length text < size)%nat -> try_parse isspace report text size <> Ok Again).
Proof.
  intros isspace report text size size' Hs Hok H1 H2. split; [|split].
  - intros h e h' e' t E E' Ht. destruct (try_says _ _ _ _ _ Hs Hok H1 E) as (t1 & R1 & T1). destruct (try_says _ _ _ _ _ Hs Hok H2 E') as (t2 & R2 & T2).
    assert (t1 = t2) by congruence. subst t2. now rewrite (proj1 (tree_unique h) e t Ht t1 T1).
  - intros [(h & e & E) E']. destruct (try_says _ _ _ _ _ Hs Hok H1 E) as (t1 & R1 & T1). pose proof (try_says _ _ _ _ _ Hs Hok H2 E') as R2. cbn in R2. congruence.
  - intros Hlt E. pose proof (try_says _ _ _ _ _ Hs Hok H1 E) as R. cbn in R. lia.
Qed.
(** Line ends. *)
Lemma lines_free : forall isspace report text text', spacelike isspace -> (forall m args, report m args = Ok tt) -> ok text -> ok text' ->
  unix_lines (before_nul text) = unix_lines (before_nul text') ->
  forall fuel fuel', (2 * length text < fuel)%nat -> (2 * length text' < fuel')%nat ->
  (parse isspace report fuel text = Ok None <-> parse isspace report fuel' text' = Ok None) /\
  forall t, (exists h e, parse isspace report fuel text = Ok (Some (h, e)) /\ is_tree h e t) <-> (exists h e, parse isspace report fuel' text' = Ok (Some (h, e)) /\ is_tree h e t).
Proof.
  intros isspace report text text' Hs Hr Ho Ho' El fuel fuel' Hf Hf'.
  assert (Er : result text = result text') by (unfold result; now rewrite El).
  destruct (parse_result isspace report Hs Hr fuel text Ho) as [[_ H]|H]; [lia|]. destruct (parse_result isspace report Hs Hr fuel' text' Ho') as [[_ H']|H']; [lia|].
  rewrite <- Er in H'. destruct (result text) as [t0|].
  - destruct H as (h & e & H & Ht). destruct H' as (h' & e' & H' & Ht'). rewrite H, H'. split; [split; discriminate|]. intros t. split; intros (h1 & e1 & E & T); injection E as <- <-.
    + exists h', e'. split; [reflexivity|]. now rewrite <- (proj1 (tree_unique _) _ _ Ht _ T).
    + exists h, e. split; [reflexivity|]. now rewrite <- (proj1 (tree_unique _) _ _ Ht' _ T).
  - rewrite H, H'. split; [tauto|]. intros t. split; intros (h1 & e1 & E & T); discriminate E.
Qed.

(** References. *)
Definition ref_value_text (r : bytes) : bytes := [60; 97; 32; 98; 61; 34; 38] ++ r ++ [59; 34; 47; 62].
Definition ref_content_text (r : bytes) : bytes := [60; 97; 62; 38] ++ r ++ [59; 60; 47; 97; 62].
Lemma plain_lines : forall s, ~ In 0 s -> ~ In 13 s -> unix_lines (before_nul s) = s.
Proof.
  induction s as [|b s IH]; intros H0 H13; [reflexivity|]. cbn [before_nul]. replace (b =? 0) with false by (symmetry; apply N.eqb_neq; intros ->; apply H0; now left).
  cbn [unix_lines]. replace (b =? 13) with false by (symmetry; apply N.eqb_neq; intros ->; apply H13; now left).
  rewrite IH; [reflexivity|intros X; apply H0; now right|intros X; apply H13; now right].
Qed.
Lemma split_semicolon : forall (r r' : bytes) s s', ~ In 59 r -> ~ In 59 r' -> r ++ 59 :: s = r' ++ 59 :: s' -> r = r' /\ s = s'.
Proof.
  induction r as [|b r IH]; intros [|b' r'] s s' H H' E; cbn [app] in E.
  - injection E as <-. auto.
  - injection E as <- _. exfalso. apply H'. now left.
  - injection E as -> _. exfalso. apply H. now left.
  - injection E as <- E. destruct (IH r' s s') as [-> ->]; auto; intros X; [apply H|apply H']; now right.
Qed.
Lemma ref_no_semicolon : forall r c, reference r c -> ~ In 59 r.
Proof. intros r c H X. apply reference_value in H. destruct H as [_ H]. rewrite Forall_forall in H. apply H in X. discriminate X. Qed.
Lemma ref_lines : forall r p s, ~ In 0 r -> ~ In 13 r -> ~ In 0 p -> ~ In 13 p -> ~ In 0 s -> ~ In 13 s -> unix_lines (before_nul (p ++ r ++ s)) = p ++ r ++ s.
Proof. intros r p s H1 H2 H3 H4 H5 H6. apply plain_lines; rewrite !in_app_iff; tauto. Qed.
Lemma ref_value_result : forall r, ok r -> ~ In 59 r -> ~ In 0 r -> ~ In 13 r -> forall t,
  (result (ref_value_text r) = Some t <-> exists c, reference r c /\ t = Elem [97] [([98], utf8 c)] []).
Proof.
  intros r Hok Hr H0 H13 t. unfold result, ref_value_text. rewrite ref_lines by (try assumption; cbn [In]; intuition discriminate).
  change (arun start ([60; 97; 32; 98; 61; 34; 38] ++ r ++ [59; 34; 47; 62]))
    with (arun (mkC S_attr4 S_string 34 [] [([97], [], [])] [98] [] [] None) (r ++ [59; 34; 47; 62])).
  split.
  - intros H. destruct (reference_back_attr S_string 34 [] [([97], [], [])] [98] [] None t (r ++ [59; 34; 47; 62]) [] (Forall_nil _) (Forall_nil _) ltac:(cbn; lia)) as (r' & c & s' & E & Hc & H').
    + apply Forall_app. split; [exact Hok|]. repeat (apply Forall_cons; [lia|]). apply Forall_nil.
    + exact H.
    + cbn [app] in E, Hc. destruct (split_semicolon r r' _ s' Hr (ref_no_semicolon _ _ Hc) E) as [-> <-]. exists c. split; [exact Hc|].
      cbn in H'. now injection H' as <-.
  - intros (c & Hc & ->). pose proof Hc as (_ & Hl & _). destruct (reference_value _ _ Hc) as [Hv Hall]. rewrite ref_run_attr by (assumption || (cbn [length]; lia)). cbn [app].
    rewrite arun_cons. unfold astep. cbv beta iota delta [table c_st c_quote]. cbn [is_ref]. change (is_ref 59) with false. cbv iota. change (59 =? 59) with true. cbv iota zeta.
    cbn [t_act aperform aprepare t_go t_next t_quote t_str c_ref c_val]. rewrite Hv. cbn. reflexivity.
Qed.
Lemma fold_kept : forall r k t, fold_left (add_byte true) r (k ++ [Text t]) = k ++ [Text (t ++ r)].
Proof.
  induction r as [|b r IH]; intros k t; cbn [fold_left]; [now rewrite app_nil_r|]. unfold add_byte at 2. rewrite rev_app_distr. cbn [rev app]. rewrite rev_involutive.
  unfold add_to at 1. rewrite andb_false_r. rewrite IH, <- app_assoc. reflexivity.
Qed.
Lemma ref_content_result : forall r, ok r -> ~ In 59 r -> ~ In 0 r -> ~ In 13 r -> forall t,
  (result (ref_content_text r) = Some t <-> exists c, reference r c /\ t = Elem [97] [] (if (c <? 128) && blank c then [] else [Text (utf8 c)])).
Proof.
  assert (U : forall c, add_unit [] (utf8 c) = if (c <? 128) && blank c then [] else [Text (utf8 c)]).
  { intros c. unfold utf8. destruct (c <? 128) eqn:E1.
    - cbn [add_unit fold_left]. destruct (blank c) eqn:Eb; unfold add_byte; cbn [rev]; unfold add_to; rewrite Eb; reflexivity.
    - cbn [andb]. assert (G : forall b r, blank b = false -> add_unit [] (b :: r) = [Text (b :: r)]).
      { intros b r Hb. cbn [add_unit]. rewrite Hb. unfold add_byte at 2. cbn [rev]. unfold add_to at 1. rewrite Hb. cbn [andb app]. exact (fold_kept r [] [b]). }
      destruct (c <? 2048); [|destruct (c <? 65536)]; apply G; unfold blank; lia. }
  intros r Hok Hr H0 H13 t. unfold result, ref_content_text. rewrite ref_lines by (try assumption; cbn [In]; intuition discriminate).
  change (arun start ([60; 97; 62; 38] ++ r ++ [59; 60; 47; 97; 62]))
    with (arun (mkC S_misc2a S_string 0 [] [([97], [], [])] [] [] [] None) (r ++ [59; 60; 47; 97; 62])).
  split.
  - intros H. destruct (reference_back_text S_string 0 [] [([97], [], [])] [] [] None t (r ++ [59; 60; 47; 97; 62]) [] (Forall_nil _) (Forall_nil _) ltac:(cbn; lia)) as (r' & c & s' & E & Hc & H').
    + apply Forall_app. split; [exact Hok|]. repeat (apply Forall_cons; [lia|]). apply Forall_nil.
    + exact H.
    + cbn [app] in E, Hc. destruct (split_semicolon r r' _ s' Hr (ref_no_semicolon _ _ Hc) E) as [-> <-]. exists c. split; [exact Hc|]. rewrite <- U.
      cbn in H'. now injection H' as <-.
  - intros (c & Hc & ->). pose proof Hc as (_ & Hl & _). destruct (reference_value _ _ Hc) as [Hv Hall]. rewrite ref_run_text by (assumption || (cbn [length]; lia)). cbn [app]. rewrite <- U.
    rewrite arun_cons. unfold astep. cbv beta iota delta [table c_st c_quote]. change (is_ref 59) with false. cbv iota. change (59 =? 59) with true. cbv iota zeta.
    cbn [t_act aperform aprepare t_go t_next t_quote t_str c_ref c_val]. rewrite Hv. cbn. reflexivity.
Qed.
