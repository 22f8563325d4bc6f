(** What DKXMLParse does with every text. *)
Require Import Coq.ZArith.ZArith Coq.NArith.NArith Coq.Lists.List Coq.Bool.Bool Coq.micromega.Lia Coq.micromega.ZifyBool Coq.micromega.ZifyN.
Require Import Verif.Base Verif.XML_Model Verif.XML_Spec Verif.XML_Machine Verif.XML_Forward Verif.XML_Forward2 Verif.XML_Backward Verif.XML_Backward2 Verif.XML_Memory Verif.XML_Relation Verif.XML_Simulates.
Import ListNotations.
Local Open Scope N_scope.

Lemma lines_unix : forall s, lines false s = unix_lines (before_nul s) /\
  lines true s = match before_nul s with c :: s'' => if c =? 10 then unix_lines s'' else unix_lines (c :: s'') | [] => [] end.
Proof.
  induction s as [|b s [IH1 IH2]]; [split; reflexivity|]. cbn [lines before_nul]. destruct (b =? 0); [split; reflexivity|].
  cbn [andb]. assert (E : (if b =? 13 then 10 :: lines true s else b :: lines false s) = unix_lines (b :: before_nul s)).
  { cbn [unix_lines]. destruct (b =? 13); [|now rewrite IH1]. rewrite IH2. destruct (before_nul s); reflexivity. }
  split; [exact E|]. destruct (b =? 10) eqn:E10; [exact IH1|]. exact E.
Qed.
Lemma ok_lines : forall s skip, ok s -> ok (lines skip s).
Proof.
  induction s as [|b s IH]; intros skip H; [constructor|]. inversion H as [|? ? Hb Hs]; subst. cbn [lines].
  destruct (b =? 0); [constructor|]. destruct (skip && (b =? 10)); [now apply IH|]. destruct (b =? 13); constructor; try lia; now apply IH.
Qed.
Definition result (s : bytes) : option tree := arun start (unix_lines (before_nul s)).
Lemma result_iff : forall s t, ok s -> (result s = Some t <-> is_document (unix_lines (before_nul s)) t).
Proof. intros s t H. unfold result. apply document_iff. rewrite <- (proj1 (lines_unix s)). now apply ok_lines. Qed.
Lemma document_unique : forall s t t', ok s -> is_document s t -> is_document s t' -> t = t'.
Proof. intros s t t' H H1 H2. apply document_iff in H1; [|assumption]. apply document_iff in H2; [|assumption]. congruence. Qed.

Lemma parse_result : forall isspace report, spacelike isspace -> (forall m args, report m args = Ok tt) -> forall fuel text, ok text ->
  parse isspace report fuel text = NoFuel /\ (fuel <= 2 * length text)%nat \/
  match result text with
  | Some t => exists h e, parse isspace report fuel text = Ok (Some (h, e)) /\ is_tree h e t
  | None => parse isspace report fuel text = Ok None
  end.
Proof.
  intros isspace report Hs Hr fuel text Hok. destruct text as [|b text]; [right; reflexivity|].
  destruct (sizes_ok isspace report Hs Hr fuel (b :: text) (N.to_nat 16384) Hok ltac:(lia)) as [[H1 H2]|[H1|[H1 ->]]].
  - left. split; [exact H1|]. lia.
  - right. unfold result. rewrite <- (proj1 (lines_unix (b :: text))). exact H1.
  - left. split; [exact H1|]. lia.
Qed.
(** The reports do not matter for what is accepted at the first attempt. *)
Lemma handle_report : forall isspace r1 r2 s r s', handle isspace r1 s r = Ok (Some s') -> handle isspace r2 s r = Ok (Some s').
Proof.
  intros isspace r1 r2 s r s' H. destruct r; try exact H; cbn [handle] in H; unfold handle in H;
    match type of H with context [r1 ?m ?a] => destruct (r1 m a); discriminate H end.
Qed.
Lemma loop_report : forall isspace r1 r2 text s h e, loop isspace r1 s text = Ok (Parsed h e) -> loop isspace r2 s text = Ok (Parsed h e).
Proof.
  intros isspace r1 r2 text. induction text as [|b text IH]; intros s h e H.
  - cbn [loop] in *. destruct (eof (parser s)); try exact H; destruct (r1 text_of_incomplete []); discriminate H.
  - cbn [loop] in *. destruct (b =? 0); [destruct (eof (parser s)); try exact H; destruct (r1 text_of_incomplete []); discriminate H|].
    destruct (parse_byte (parser s) b) as [[x r]| | |]; try discriminate H. cbn [obind fst snd] in *.
    destruct (handle isspace r1 (mkS x (heap s) (root s) (estack s) (attrvalue s)) r) as [[s'|]| | |] eqn:E; try discriminate H.
    + rewrite (handle_report _ _ _ _ _ _ E). cbn [obind] in *. now apply IH.
    + cbn [obind] in H. destruct r; discriminate H.
Qed.
Lemma small_parse : forall isspace report, spacelike isspace -> forall fuel text t, ok text -> (0 < fuel)%nat -> 2 * N.of_nat (length text) < 16384 ->
  result text = Some t -> exists h e, parse isspace report fuel text = Ok (Some (h, e)) /\ is_tree h e t.
Proof.
  intros isspace report Hs fuel text t Hok Hf Hlen Hr. destruct fuel as [|fuel]; [lia|]. destruct text as [|b text]; [discriminate Hr|].
  unfold parse. cbn [parse_sizes].
  destruct (try_ok isspace (fun _ _ => Ok tt) Hs ltac:(reflexivity) (b :: text) (N.to_nat 16384) Hok ltac:(lia)) as [[_ H]|H]; [lia|].
  rewrite (proj1 (lines_unix (b :: text))) in H. unfold result in Hr. rewrite Hr in H. destruct H as (h & e & H & Ht). exists h, e. split; [|exact Ht].
  unfold try_parse in *. destruct (init (N.to_nat 16384)) as [x| | |]; try discriminate H. cbn [obind] in *. rewrite (loop_report _ _ report _ _ _ _ H). reflexivity.
Qed.

(** The shape of the trees of documents. *)
Scheme element_min := Minimality for is_element Sort Prop with content_min := Minimality for is_content Sort Prop.
Combined Scheme element_content_min from element_min, content_min.

Lemma in_snoc_texts : forall k i s, In (Text s) (k ++ [i]) -> In (Text s) k \/ i = Text s.
Proof. intros k i s H. apply in_app_or in H. destruct H as [H|[H|[]]]; auto. Qed.
Definition ends_text (k : list item) : bool := match rev k with Text _ :: _ => true | _ => false end.
Lemma apart_snoc : forall k i, texts_apart k -> (ends_text k = true -> exists t, i = Sub t) -> texts_apart (k ++ [i]).
Proof.
  intros k i H Hi a s s' b E. destruct b as [|x b _] using rev_ind.
  - change (a ++ [Text s; Text s'] ++ []) with (a ++ [Text s] ++ [Text s']) in E. rewrite app_assoc in E. apply app_inj_tail in E. destruct E as [-> ->].
    unfold ends_text in Hi. rewrite rev_app_distr in Hi. cbn [rev app] in Hi. destruct (Hi eq_refl) as (t & X). discriminate X.
  - rewrite !app_assoc in E. apply app_inj_tail in E. destruct E as [E _]. rewrite <- app_assoc in E. exact (H a s s' b E).
Qed.
Lemma apart_init : forall k i, texts_apart (k ++ [i]) -> texts_apart k.
Proof. intros k i H a s s' b E. apply (H a s s' (b ++ [i])). rewrite E, <- !app_assoc. reflexivity. Qed.
Lemma ends_snoc : forall k i, ends_text (k ++ [i]) = match i with Text _ => true | Sub _ => false end.
Proof. intros k i. unfold ends_text. rewrite rev_app_distr. reflexivity. Qed.
(** What adding a byte does to a list of items. *)
Lemma add_byte_cases : forall kp k b, (kp = true -> ends_text k = true) ->
  (exists k0 t, k = k0 ++ [Text t] /\ add_byte kp k b = k0 ++ [Text (add_to kp t b)]) \/
  ends_text k = false /\ kp = false /\ (blank b = true /\ add_byte kp k b = k \/ blank b = false /\ add_byte kp k b = k ++ [Text [b]]).
Proof.
  intros kp k b Hkp. unfold add_byte, ends_text in *. destruct k as [|i k _] using rev_ind.
  - right. cbn [rev] in *. destruct kp; [now discriminate Hkp|]. split; [reflexivity|]. split; [reflexivity|]. unfold add_to. cbn [last negb]. rewrite andb_true_r.
    destruct (blank b); [left; split; reflexivity|right; split; reflexivity].
  - rewrite rev_app_distr in *. cbn [rev app] in *. destruct i as [t|t].
    + left. exists k, t. rewrite rev_involutive. split; reflexivity.
    + right. destruct kp; [now discriminate Hkp|]. split; [reflexivity|]. split; [reflexivity|]. unfold add_to. cbn [last negb]. rewrite andb_true_r.
      destruct (blank b); [left; split; reflexivity|right; split; reflexivity].
Qed.
Lemma add_to_keeps : forall kp t b, t <> [] -> exists r, add_to kp t b = t ++ r.
Proof. intros kp t b H. unfold add_to. destruct (_ && _); [destruct (blank _); [exists []; now rewrite app_nil_r|]|]; eexists; reflexivity. Qed.
Lemma hd_app : forall (t r : bytes), t <> [] -> hd 0 (t ++ r) = hd 0 t.
Proof. intros [|b t] r H; [congruence|reflexivity]. Qed.

(** Lists of items that can be part of the content of an element. *)
Definition fit (P : bytes -> Prop) (Q : tree -> Prop) (k : list item) : Prop :=
  texts_apart k /\ (forall s, In (Text s) k -> P s) /\ (forall t, In (Sub t) k -> Q t).
Lemma fit_byte : forall (P : bytes -> Prop) Q kp k b, (kp = true -> ends_text k = true) ->
  (forall t, P t -> P (add_to kp t b)) -> (kp = false -> blank b = false -> P [b]) -> fit P Q k -> fit P Q (add_byte kp k b).
Proof.
  intros P Q kp k b Hkp Hadd Hnew (H1 & H2 & H3). destruct (add_byte_cases kp k b Hkp) as [(k0 & t & -> & ->)|(He & Hk & [(Hb & ->)|(Hb & ->)])].
  - assert (Hk0 : ends_text k0 = false).
    { unfold ends_text. destruct k0 as [|i k0 _] using rev_ind; [reflexivity|]. rewrite rev_app_distr. cbn [rev app]. destruct i as [s|]; [|reflexivity].
      exfalso. apply (H1 k0 s t []). now rewrite <- app_assoc. }
    split; [|split].
    + apply apart_snoc; [now apply apart_init in H1|]. rewrite Hk0. discriminate.
    + intros s Hs. apply in_snoc_texts in Hs. destruct Hs as [Hs|Hs]; [apply H2; apply in_or_app; auto|]. injection Hs as <-. apply Hadd, H2, in_or_app. right. now left.
    + intros s Hs. apply in_app_or in Hs. destruct Hs as [Hs|[Hs|[]]]; [apply H3; apply in_or_app; auto|discriminate Hs].
  - split; [|split]; assumption.
  - split; [|split].
    + apply apart_snoc; [assumption|]. rewrite He. discriminate.
    + intros s Hs. apply in_snoc_texts in Hs. destruct Hs as [Hs|Hs]; [auto|]. injection Hs as <-. auto.
    + intros s Hs. apply in_app_or in Hs. destruct Hs as [Hs|[Hs|[]]]; [auto|discriminate Hs].
Qed.
Lemma fit_sub : forall P Q k t, fit P Q k -> Q t -> fit P Q (k ++ [Sub t]).
Proof.
  intros P Q k t (H1 & H2 & H3) Ht. split; [|split].
  - apply apart_snoc; [assumption|]. eauto.
  - intros s Hs. apply in_snoc_texts in Hs. destruct Hs as [Hs|Hs]; [auto|discriminate Hs].
  - intros s Hs. apply in_app_or in Hs. destruct Hs as [Hs|[Hs|[]]]; [auto|congruence].
Qed.
Lemma fit_bytes : forall (P : bytes -> Prop) Q s k, (forall b t, P t -> P (add_to false t b)) -> (forall b, blank b = false -> P [b]) -> fit P Q k -> fit P Q (add_bytes k s).
Proof.
  intros P Q s. unfold add_bytes. induction s as [|b s IH]; intros k Hadd Hnew H; [exact H|]. cbn [fold_left]. apply IH; [assumption..|].
  apply fit_byte; auto. discriminate.
Qed.
Lemma byte_ends : forall kp k b, ends_text k = true -> ends_text (add_byte kp k b) = true.
Proof.
  intros kp k b H. destruct (add_byte_cases kp k b ltac:(auto)) as [(k0 & t & -> & ->)|(He & _)]; [apply ends_snoc|congruence].
Qed.
Lemma fit_cdata : forall (P : bytes -> Prop) Q s k before, (forall kp b t, P t -> P (add_to kp t b)) -> (forall b, blank b = false -> P [b]) ->
  (before = 93 -> ends_text k = true) -> fit P Q k -> fit P Q (add_cdata k before s).
Proof.
  intros P Q s. induction s as [|b s IH]; intros k before Hadd Hnew Hb H; [exact H|]. cbn [add_cdata].
  assert (Hkp : (before =? 93) = true -> ends_text k = true) by (intros X; apply Hb; lia). apply IH; auto.
  - intros ->. destruct (add_byte_cases (before =? 93) k 93 Hkp) as [(k0 & t & -> & ->)|(He & Hk & [(X & ->)|(X & ->)])]; [apply ends_snoc|discriminate X|apply ends_snoc].
  - apply fit_byte; auto.
Qed.
(** Attributes. *)
Lemma assign_keys : forall a n v, NoDup (map fst a) -> Forall (fun kv => is_a_name (fst kv)) a -> is_a_name n ->
  NoDup (map fst (assign a n v)) /\ Forall (fun kv => is_a_name (fst kv)) (assign a n v) /\ (forall m, In m (map fst (assign a n v)) -> m = n \/ In m (map fst a)).
Proof.
  induction a as [|kv a IH]; intros n v Hd Hf Hn; cbn [assign map fst].
  - split; [constructor; [intros []|constructor]|]. split; [constructor; [assumption|constructor]|]. intros m [<-|[]]. auto.
  - cbn [map] in Hd. apply NoDup_cons_iff in Hd. destruct Hd as [Hk Hd]. inversion Hf as [|? ? Hf1 Hf2]; subst.
    destruct (list_eq_dec N.eq_dec n (fst kv)) as [E|E]; cbn [map fst].
    + rewrite E. split; [constructor; assumption|]. split; [constructor; [rewrite <- E; assumption|assumption]|]. cbn [In]. tauto.
    + destruct (IH n v Hd Hf2 Hn) as (I1 & I2 & I3). split; [constructor; [|assumption]|].
      * intros X. apply I3 in X. destruct X as [X|X]; [congruence|contradiction].
      * split; [constructor; assumption|]. intros m [<-|X]; [right; now left|]. apply I3 in X. cbn [In]. tauto.
Qed.
Lemma attributes_keys : forall a s a', attributes a s a' -> NoDup (map fst a) -> Forall (fun kv => is_a_name (fst kv)) a ->
  NoDup (map fst a') /\ Forall (fun kv => is_a_name (fst kv)) a'.
Proof.
  intros a s a' H. induction H as [a|a w s n v s' a' Hw Hne Hat H IH]; intros Hd Hf; [auto|].
  inversion Hat; subst. destruct (assign_keys a n v Hd Hf ltac:(assumption)) as (I1 & I2 & _). auto.
Qed.

Definition shaped : bytes -> list (bytes * bytes) -> list item -> Prop := fun n a k =>
  is_a_name n /\ NoDup (map fst a) /\ Forall (fun kv => is_a_name (fst kv)) a /\ texts_apart k /\ forall s, In (Text s) k -> s <> [] /\ blank (hd 0 s) = false.
Lemma shaped_all : (forall s t, is_element s t -> everywhere shaped t) /\
  (forall k s k', is_content k s k' -> fit (fun s => s <> [] /\ blank (hd 0 s) = false) (everywhere shaped) k -> fit (fun s => s <> [] /\ blank (hd 0 s) = false) (everywhere shaped) k').
Proof.
  assert (Hadd : forall kp b t, t <> [] /\ blank (hd 0 t) = false -> add_to kp t b <> [] /\ blank (hd 0 (add_to kp t b)) = false).
  { intros kp b t [Ht Hb]. destruct (add_to_keeps kp t b Ht) as (r & ->). rewrite hd_app by assumption. split; [|assumption]. destruct t; [congruence|discriminate]. }
  assert (Hnew : forall b, blank b = false -> [b] <> [] /\ blank (hd 0 [b]) = false) by (intros b Hb; split; [discriminate|exact Hb]).
  assert (Hempty : fit (fun s => s <> [] /\ blank (hd 0 s) = false) (everywhere shaped) []).
  { split; [|split]; [|intros s []|intros s []]. intros [|x a] s s' b X; discriminate X. }
  assert (Hel : forall n s a k, start_tag n s a -> fit (fun s => s <> [] /\ blank (hd 0 s) = false) (everywhere shaped) k -> everywhere shaped (Elem n a k)).
  { intros n s a k (as_ & w & -> & Hn & Ha & Hw) (F1 & F2 & F3). destruct (attributes_keys _ _ _ Ha ltac:(constructor) ltac:(constructor)) as [A1 A2].
    constructor; [|exact F3]. repeat split; auto; intros; now apply F2. }
  apply element_content_min.
  - intros n s a Hs. eapply Hel; eauto.
  - intros n s a c k w Hs _ IH _. eapply Hel; eauto.
  - auto.
  - intros k b s k' _ _ _ IH H. apply IH. apply fit_byte; auto. discriminate.
  - intros k r c s k' _ _ IH H. apply IH. apply fit_bytes; auto.
  - intros k c s k' _ _ IH H. apply IH. apply fit_cdata; auto. discriminate.
  - intros k c s k' _ _ IH H. auto.
  - intros k c s k' _ _ IH H. auto.
  - intros k e t s k' _ Ht _ IH H. apply IH. now apply fit_sub.
Qed.
Lemma root_element : forall s t, is_root s t -> exists n s' a c k, start_tag n s' a /\ is_content [] c k /\ t = Elem n a k /\ (forall b, In b c -> In b s).
Proof.
  intros s t H. destruct H as [n s a H|n s a c k m H Hc Hm].
  - exists n, s, a, [], []. split; [assumption|]. split; [constructor|]. split; [reflexivity|]. intros b [].
  - exists n, s, a, c, k. split; [assumption|]. split; [assumption|]. split; [reflexivity|]. intros b Hb. rewrite !in_app_iff. auto.
Qed.
Lemma document_shaped : forall s t, is_document s t -> everywhere shaped t.
Proof.
  intros s t (bom & w & d & m & r & m' & -> & _ & _ & _ & _ & Hr & _). apply root_element in Hr. destruct Hr as (n & s' & a & c & k & Hs & Hc & -> & _).
  apply (proj1 shaped_all (s' ++ [62] ++ c ++ [60; 47] ++ n ++ [] ++ [62])). now apply el_full; [..|apply Forall_nil].
Qed.

(** Collapsed blanks. *)
Lemma collapsed_add : forall b t, collapsed t -> collapsed (add_to false t b).
Proof.
  intros b t [H1 H2]. unfold add_to. rewrite andb_true_r. destruct (blank b) eqn:Eb.
  - destruct (blank (last t 32)) eqn:El; [split; assumption|]. split.
    + intros a x y c E Hx. destruct c as [|z c _] using rev_ind.
      * rewrite app_nil_r in E. change [x; y] with ([x] ++ [y]) in E. rewrite app_assoc in E. apply app_inj_tail in E. destruct E as [E _]. subst t.
        rewrite last_last in El. congruence.
      * rewrite !app_assoc in E. apply app_inj_tail in E. destruct E as [E _]. rewrite <- app_assoc in E. exact (H1 a x y c E Hx).
    + intros c Hc Hb. apply in_app_or in Hc. destruct Hc as [Hc|[<-|[]]]; [auto|reflexivity].
  - split.
    + intros a x y c E Hx. destruct c as [|z c _] using rev_ind.
      * rewrite app_nil_r in E. change [x; y] with ([x] ++ [y]) in E. rewrite app_assoc in E. apply app_inj_tail in E. destruct E as [E <-]. assumption.
      * rewrite !app_assoc in E. apply app_inj_tail in E. destruct E as [E _]. rewrite <- app_assoc in E. exact (H1 a x y c E Hx).
    + intros c Hc Hb. apply in_app_or in Hc. destruct Hc as [Hc|[<-|[]]]; [auto|congruence].
Qed.
Lemma collapsed_new : forall b, blank b = false -> collapsed [b].
Proof.
  intros b Hb. split.
  - intros [|z [|z' a]] x y c E; discriminate E.
  - intros c [<-|[]] X. congruence.
Qed.
Definition tight : bytes -> list (bytes * bytes) -> list item -> Prop := fun n a k => forall s, In (Text s) k -> collapsed s.
Lemma bracket_mid : forall x s y, no_bracket_blank (x ++ s ++ y) -> no_bracket_blank s.
Proof. intros x s y H a b c Hb E. apply (H (x ++ a) b (c ++ y) Hb). rewrite E. repeat (rewrite <- !app_assoc; cbn [app]). reflexivity. Qed.
Lemma bracket_right : forall x s, no_bracket_blank (x ++ s) -> no_bracket_blank s.
Proof. intros x s H. apply (bracket_mid x s []). now rewrite app_nil_r. Qed.
Lemma bracket_left : forall s y, no_bracket_blank (s ++ y) -> no_bracket_blank s.
Proof. intros s y H. exact (bracket_mid [] s y H). Qed.
Lemma cdata_tight : forall s k before, (before = 93 -> ends_text k = true) -> no_bracket_blank (before :: s) ->
  fit collapsed (everywhere tight) k -> fit collapsed (everywhere tight) (add_cdata k before s).
Proof.
  induction s as [|b s IH]; intros k before Hb Hin H; [exact H|]. cbn [add_cdata].
  assert (Hkp : (before =? 93) = true -> ends_text k = true) by (intros X; apply Hb; lia). apply IH.
  - intros ->. destruct (add_byte_cases (before =? 93) k 93 Hkp) as [(k0 & t & -> & ->)|(He & Hk & [(X & ->)|(X & ->)])]; [apply ends_snoc|discriminate X|apply ends_snoc].
  - exact (bracket_right [before] _ Hin).
  - apply fit_byte; auto using collapsed_new. intros t Ht. destruct (before =? 93) eqn:E; [|now apply collapsed_add].
    assert (Hnb : blank b = false). { destruct (blank b) eqn:Eb; [|reflexivity]. exfalso. apply (Hin [] b s Eb). apply N.eqb_eq in E. now subst before. }
    pose proof (collapsed_add b t Ht) as X. unfold add_to in *. rewrite Hnb in *. exact X.
Qed.
Lemma tight_all : (forall s t, is_element s t -> no_bracket_blank s -> everywhere tight t) /\
  (forall k s k', is_content k s k' -> no_bracket_blank s -> fit collapsed (everywhere tight) k -> fit collapsed (everywhere tight) k').
Proof.
  assert (Hempty : fit collapsed (everywhere tight) []).
  { split; [|split]; [|intros s []|intros s []]. intros [|x a] s s' b X; discriminate X. }
  assert (Hel : forall n a k, fit collapsed (everywhere tight) k -> everywhere tight (Elem n a k)).
  { intros n a k (F1 & F2 & F3). constructor; [exact F2|exact F3]. }
  apply element_content_min.
  - intros n s a Hs _. eapply Hel; eauto.
  - intros n s a c k w Hs _ IH _ Hin. apply Hel. apply IH; [|exact Hempty]. apply bracket_right, bracket_right, bracket_left in Hin. exact Hin.
  - auto.
  - intros k b s k' _ _ _ IH Hin H. apply IH; [exact (bracket_right [b] _ Hin)|]. apply fit_byte; auto using collapsed_add, collapsed_new. discriminate.
  - intros k r c s k' _ _ IH Hin H. apply IH; [now apply bracket_right, bracket_right, bracket_right in Hin|]. apply fit_bytes; auto using collapsed_add, collapsed_new.
  - intros k c s k' _ _ IH Hin H. apply IH; [now apply bracket_right, bracket_right, bracket_right in Hin|]. apply cdata_tight; [discriminate| |assumption].
    apply bracket_right, bracket_left in Hin. intros [|z a] x y Hx E; [discriminate E|]. injection E as _ E. exact (Hin a x y Hx E).
  - intros k c s k' _ _ IH Hin H. apply IH; [now apply bracket_right in Hin|assumption].
  - intros k c s k' _ _ IH Hin H. apply IH; [now apply bracket_right in Hin|assumption].
  - intros k e t s k' _ Ht _ IH Hin H. apply IH; [now apply bracket_right in Hin|]. apply fit_sub; [assumption|]. apply Ht. now apply bracket_left in Hin.
Qed.
Lemma root_content : forall s t, is_root s t -> exists n s' a c k x y, start_tag n s' a /\ is_content [] c k /\ t = Elem n a k /\ s = x ++ c ++ y.
Proof.
  intros s t H. destruct H as [n s a H|n s a c k m H Hc Hm].
  - exists n, s, a, [], [], (s ++ [47; 62]), []. rewrite app_nil_r. split; [assumption|]. split; [constructor|]. split; reflexivity.
  - exists n, s, a, c, k, (s ++ [62]), ([60; 47] ++ n ++ m). split; [assumption|]. split; [assumption|]. split; [reflexivity|]. now rewrite <- app_assoc.
Qed.
Lemma document_tight : forall s t, is_document s t -> no_bracket_blank s -> everywhere tight t.
Proof.
  intros s t (bom & w & d & m & r & m' & -> & _ & _ & _ & _ & Hr & _) Hin. apply root_content in Hr. destruct Hr as (n & s' & a & c & k & x & y & Hs & Hc & -> & ->).
  assert (F : fit collapsed (everywhere tight) k).
  { apply (proj2 tight_all [] c k Hc).
    - now apply bracket_right, bracket_right, bracket_right, bracket_right, bracket_left, bracket_mid in Hin.
    - split; [|split]; [|intros z []|intros z []]. intros [|z a0] s0 s1 b X; discriminate X. }
  destruct F as (F1 & F2 & F3). constructor; [exact F2|exact F3].
Qed.
