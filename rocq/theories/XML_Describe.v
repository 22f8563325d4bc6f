(** Reading the description of an element. *)
Require Import Coq.ZArith.ZArith Coq.NArith.NArith Coq.Lists.List Coq.Bool.Bool Coq.micromega.Lia Coq.micromega.ZifyBool Coq.micromega.ZifyN.
Require Import Verif.Base Verif.XML_Model Verif.XML_Spec Verif.XML_Machine Verif.XML_Forward Verif.XML_Forward2 Verif.XML_Backward Verif.XML_Backward2 Verif.XML_Memory Verif.XML_Relation Verif.XML_Simulates Verif.XML_Final.
Import ListNotations.
Local Open Scope N_scope.

Section Tree_rect.
  Variable P : tree -> Prop.
  Hypothesis H : forall n a k, (forall t, In (Sub t) k -> P t) -> P (Elem n a k).
  Fixpoint tree_all (t : tree) : P t :=
    match t with
    | Elem n a k => H n a k ((fix all (k : list item) : forall t, In (Sub t) k -> P t :=
        match k return forall t, In (Sub t) k -> P t with
        | [] => fun t (X : In (Sub t) []) => match X with end
        | i :: k' => fun t (X : In (Sub t) (i :: k')) =>
          match X with
          | or_introl E => match E in _ = j return match j with Sub t => P t | Text _ => True end with eq_refl => match i with Sub t => tree_all t | Text _ => Logic.I end end
          | or_intror X => all k' t X
          end
        end) k)
    end.
End Tree_rect.

Definition each (f : nat -> outcome bytes) (ind : nat) : list child -> outcome bytes :=
  fix each l :=
    match l with
    | [] => Ok []
    | c :: l' => do a <- match c with CText t => Ok (indent (ind + 1) ++ t ++ [10]) | CElement e => f e end; do r <- each l'; Ok (a ++ r)
    end.
Lemma describe_step : forall fuel h e ind n a ks, nth_error h e = Some (mkE n a ks) ->
  describe (S fuel) h e ind = do c <- each (fun e => describe fuel h e (ind + 1)) ind ks;
    Ok (indent ind ++ [60] ++ n ++ concat (map write_attribute a) ++ [62; 10] ++ c ++ indent ind ++ [60; 47] ++ n ++ [62; 10]).
Proof. intros fuel h e ind n a ks E. cbn [describe]. rewrite E. reflexivity. Qed.

Lemma indent_blank : forall n, Forall (fun b => b = 32) (indent n).
Proof. intros n. unfold indent. induction n as [|n IH]; cbn [repeat concat app]; [constructor|]. constructor; [reflexivity|]. constructor; [reflexivity|exact IH]. Qed.
(** Blanks that change nothing. *)
Definition steady (k : list item) : Prop := forall b, blank b = true -> add_byte false k b = k.
Lemma steady_end : forall k, ends_text k = false -> steady k.
Proof.
  intros k H b Hb. destruct (add_byte_cases false k b ltac:(discriminate)) as [(k0 & t & -> & _)|(_ & _ & [(_ & E)|(X & _)])]; [rewrite ends_snoc in H; discriminate|exact E|congruence].
Qed.
Lemma steady_text : forall k t, blank (last t 32) = true -> steady (k ++ [Text t]).
Proof.
  intros k t H b Hb. unfold add_byte. rewrite rev_app_distr. cbn [rev app]. rewrite rev_involutive. unfold add_to. rewrite Hb, H. reflexivity.
Qed.
Lemma content_blanks : forall w k s k', steady k -> Forall (fun b => blank b = true) w -> is_content k s k' -> is_content k (w ++ s) k'.
Proof.
  induction w as [|b w IH]; intros k s k' Hk Hw H; [exact H|]. inversion Hw as [|? ? Hb Hw']; subst. cbn [app]. unfold blank in Hb. apply con_char; [lia|lia|].
  rewrite Hk by exact Hb. now apply IH.
Qed.
Lemma content_text : forall s k s' k' t, Forall plain_byte s -> collapsed (t ++ s) -> t <> [] -> is_content (k ++ [Text (t ++ s)]) s' k' -> is_content (k ++ [Text t]) (s ++ s') k'.
Proof.
  induction s as [|b s IH]; intros k s' k' t Hp Hc Ht H; [rewrite app_nil_r in H; exact H|]. inversion Hp as [|? ? Hb Hp']; subst. destruct Hb as (B0 & B1 & B2 & B3 & B4).
  cbn [app]. apply con_char; [assumption|assumption|]. unfold add_byte. rewrite rev_app_distr. cbn [rev app]. rewrite rev_involutive.
  assert (E : add_to false t b = t ++ [b]).
  { unfold add_to. rewrite andb_true_r. destruct (blank b) eqn:Eb; [|reflexivity]. destruct Hc as [C1 C2].
    assert (b = 32) by (apply C2; [apply in_or_app; right; now left|assumption]). subst b.
    destruct (exists_last Ht) as (t0 & x & ->). rewrite last_last. destruct (blank x) eqn:Ex; [|reflexivity].
    rewrite (C1 t0 x 32 s) in Eb; [discriminate|now rewrite <- app_assoc|assumption]. }
  rewrite E. apply IH; [assumption| |destruct t; discriminate|]; rewrite <- app_assoc; assumption.
Qed.

(** Attributes. *)
Lemma assign_new : forall a n v, ~ In n (map fst a) -> assign a n v = a ++ [(n, v)].
Proof.
  induction a as [|kv a IH]; intros n v H; [reflexivity|]. cbn [assign app]. cbn [map In] in H. destruct (list_eq_dec N.eq_dec n (fst kv)) as [E|E]; [exfalso; apply H; auto|].
  rewrite IH; [reflexivity|tauto].
Qed.
Lemma value_plain : forall v, Forall (fun b => plain_byte b /\ b <> 34 /\ b <> 9 /\ b <> 10) v -> value 34 v v.
Proof.
  induction v as [|b v IH]; intros H; [constructor|]. inversion H as [|? ? ((B0 & B1 & B2 & B3 & B4) & B5 & B6 & B7) Hv]; subst.
  replace (b :: v) with (as_space b :: v) at 2 by (unfold as_space; replace (b =? 9) with false by lia; replace (b =? 10) with false by lia; reflexivity).
  apply val_char; auto.
Qed.
Lemma attributes_said : forall l a, NoDup (map fst (a ++ l)) ->
  Forall (fun kv => (is_a_name (fst kv) /\ Forall (fun b => b < 256) (fst kv)) /\ Forall (fun b => plain_byte b /\ b <> 34 /\ b <> 9 /\ b <> 10) (snd kv)) l ->
  attributes a (concat (map write_attribute l)) (a ++ l).
Proof.
  induction l as [|[n v] l IH]; intros a Hd Hf; [rewrite app_nil_r; constructor|]. inversion Hf as [|? ? [[Hn _] Hv] Hf']; subst. cbn [fst snd] in *. cbn [map concat].
  replace (write_attribute (n, v) ++ concat (map write_attribute l)) with ([32] ++ (n ++ [] ++ [61] ++ [] ++ [34] ++ v ++ [34]) ++ concat (map write_attribute l))
    by (unfold write_attribute; cbn [fst snd]; repeat (rewrite <- !app_assoc; cbn [app]); reflexivity).
  apply atts_cons with (n := n) (v := v).
  - repeat constructor.
  - discriminate.
  - constructor; [assumption|apply Forall_nil|apply Forall_nil|right; reflexivity|now apply value_plain].
  - rewrite assign_new.
    + change (a ++ (n, v) :: l) with (a ++ [(n, v)] ++ l). rewrite app_assoc. apply IH; [|assumption]. now rewrite <- app_assoc.
    + rewrite map_app in Hd. cbn [map fst] in Hd. apply NoDup_remove_2 in Hd. intros X. apply Hd. apply in_or_app. auto.
Qed.

(** The bytes of descriptions. *)
Definition written (s : bytes) : Prop := Forall (fun b => b <> 0 /\ b < 256 /\ b <> 13) s.
Lemma written_app : forall s s', written s -> written s' -> written (s ++ s').
Proof. intros s s' H H'. apply Forall_app. auto. Qed.
Lemma written_name : forall n, is_a_name n -> Forall (fun b => b < 256) n -> written n.
Proof.
  intros [|b n] H Hb; [destruct H|]. destruct H as [H1 H2]. inversion Hb as [|? ? Hb1 Hb2]; subst.
  assert (S : forall b, name_start b -> b <> 0 /\ b <> 13) by (intros c; unfold name_start, letter; lia).
  constructor; [destruct (S b H1); auto|]. apply Forall_forall. intros c Hc. rewrite Forall_forall in H2, Hb2. specialize (H2 c Hc). specialize (Hb2 c Hc).
  unfold name_char, name_start, letter, digit in H2. lia.
Qed.
Lemma written_lines : forall s, written s -> unix_lines (before_nul s) = s /\ ok s.
Proof.
  induction s as [|b s IH]; intros H; [split; [reflexivity|constructor]|]. inversion H as [|? ? (B0 & B1 & B2) Hs]; subst. destruct (IH Hs) as [I1 I2].
  cbn [before_nul]. replace (b =? 0) with false by lia. cbn [unix_lines]. replace (b =? 13) with false by lia. rewrite I1. split; [reflexivity|constructor; assumption].
Qed.
Lemma written_atts : forall l,
  Forall (fun kv => (is_a_name (fst kv) /\ Forall (fun b => b < 256) (fst kv)) /\ Forall (fun b => plain_byte b /\ b <> 34 /\ b <> 9 /\ b <> 10) (snd kv)) l ->
  written (concat (map write_attribute l)).
Proof.
  induction l as [|[n v] l IH]; intros H; [constructor|]. inversion H as [|? ? [[Hn Hb] Hv] H']; subst. cbn [fst snd] in *. cbn [map concat]. apply written_app; [|now apply IH].
  unfold write_attribute. cbn [fst snd]. repeat apply written_app; try (repeat (apply Forall_cons; [lia|]); apply Forall_nil); [now apply written_name|].
  apply Forall_forall. intros b Hin. rewrite Forall_forall in Hv. destruct (Hv b Hin) as ((B0 & B1 & B2 & B3 & B4) & _). auto.
Qed.

Definition respaced_item (i : item) : item := match i with Text s => Text (respace s) | Sub t => Sub (respaced t) end.
Lemma respace_last : forall s, blank (last (respace s) 32) = true.
Proof. intros s. unfold respace. destruct (blank (last s 32)) eqn:E; [exact E|]. now rewrite last_last. Qed.
Definition spoken (t : tree) : Prop := forall h e ind, is_tree h e t -> exists m d,
  (forall fuel, (m <= fuel)%nat -> describe fuel h e ind = Ok (indent ind ++ d ++ [10])) /\ is_element d (respaced t) /\ is_root d (respaced t) /\ written d.

Lemma items_said : forall h ind k, (forall t, In (Sub t) k -> spoken t) ->
  (forall s, In (Text s) k -> s <> [] /\ blank (hd 0 s) = false /\ collapsed s /\ Forall plain_byte s) ->
  texts_apart k -> forall ks, are_items h ks k -> exists m c,
  (forall fuel, (m <= fuel)%nat -> each (fun e => describe fuel h e (ind + 1)) ind ks = Ok c) /\ written c /\
  forall k0 s k', steady k0 -> (match k with Text _ :: _ => ends_text k0 = false | _ => True end) -> (forall k1, steady k1 -> k1 = k0 ++ map respaced_item k -> is_content k1 s k') ->
    is_content k0 (c ++ s) k'.
Proof.
  intros h ind k. induction k as [|i k IH]; intros Hsub Htext Hap ks Hks.
  - inversion Hks; subst. exists O, []. split; [reflexivity|]. split; [constructor|]. intros k0 s k' Hst _ H. cbn [app]. apply H; [assumption|]. now rewrite app_nil_r.
  - assert (Hap' : texts_apart k) by (intros a s s' b E; apply (Hap (i :: a) s s' b); now rewrite E).
    assert (W : forall n, written (indent n)) by (intros n; eapply Forall_impl; [|apply indent_blank]; cbv beta; intros; lia).
    assert (BI : forall n, Forall (fun b => blank b = true) (indent n)) by (intros n; eapply Forall_impl; [|apply indent_blank]; cbv beta; intros ? ->; reflexivity).
    inversion Hks as [|s ks' k'' Hks'|e t ks' k'' Ht Hks']; subst.
    + destruct (IH ltac:(intros; apply Hsub; now right) ltac:(intros; apply Htext; now right) Hap' ks' Hks') as (m & c & Hc & Hw & Hcon).
      destruct (Htext s ltac:(now left)) as (S1 & S2 & S3 & S4).
      exists m, ((indent (ind + 1) ++ s ++ [10]) ++ c). split; [|split].
      * intros fuel Hf. cbn [each]. cbn [obind]. rewrite Hc by assumption. reflexivity.
      * repeat apply written_app; auto; [|repeat (apply Forall_cons; [lia|]); apply Forall_nil]. eapply Forall_impl; [|exact S4]. intros b (B0 & B1 & _ & _ & B4). auto.
      * intros k0 s' k' Hst Hend H. rewrite <- !app_assoc. apply content_blanks; [assumption|apply BI|].
        destruct s as [|b s]; [congruence|]. cbn [hd] in S2. inversion S4 as [|? ? (B0 & B1 & B2 & B3 & B4) S4']; subst. cbn [app]. apply con_char; [assumption|assumption|].
        destruct (add_byte_cases false k0 b ltac:(discriminate)) as [(k1 & t1 & -> & _)|(_ & _ & [(X & _)|(_ & ->)])]; [rewrite ends_snoc in Hend; discriminate|congruence|].
        apply content_text; [assumption|exact S3|discriminate|]. cbn [app]. apply con_char; [lia|lia|].
        unfold add_byte. rewrite rev_app_distr. cbn [rev app]. rewrite rev_involutive.
        assert (Er : add_to false (b :: s) 10 = respace (b :: s)) by (unfold add_to, respace; reflexivity). rewrite Er.
        apply Hcon.
        -- apply steady_text, respace_last.
        -- destruct k as [|[s2|t2] k]; try exact Logic.I. exfalso. apply (Hap [] (b :: s) s2 k). reflexivity.
        -- intros k1 Hk1 E. apply H; [assumption|]. rewrite E, <- app_assoc. reflexivity.
    + destruct (IH ltac:(intros; apply Hsub; now right) ltac:(intros; apply Htext; now right) Hap' ks' Hks') as (m & c & Hc & Hw & Hcon).
      destruct (Hsub t ltac:(now left) h e (ind + 1)%nat Ht) as (m' & d & Hd & Hel & _ & Hwd).
      exists (m + m')%nat, ((indent (ind + 1) ++ d ++ [10]) ++ c). split; [|split].
      * intros fuel Hf. cbn [each]. rewrite Hd by lia. cbn [obind]. rewrite Hc by lia. reflexivity.
      * repeat apply written_app; auto. repeat (apply Forall_cons; [lia|]); apply Forall_nil.
      * intros k0 s' k' Hst _ H. rewrite <- !app_assoc. apply content_blanks; [assumption|apply BI|].
        apply con_element with (t := respaced t); [assumption|].
        assert (Hst' : steady (k0 ++ [Sub (respaced t)])) by (apply steady_end, ends_snoc).
        apply content_blanks; [assumption|repeat constructor|]. apply Hcon; [assumption| |].
        -- destruct k as [|[s2|t2] k]; try exact Logic.I. apply ends_snoc.
        -- intros k1 Hk1 E. apply H; [assumption|]. rewrite E, <- app_assoc. reflexivity.
Qed.
Lemma all_spoken : forall t, everywhere sayable t -> spoken t.
Proof.
  intros t. induction t as [n a k IH] using tree_all. intros Ht. inversion Ht as [? ? ? (Hn & Hd & Ha & Hap & Htx) Hs]; subst. destruct Hn as [Hn Hnb].
  intros h e ind He. inversion He as [? ? ? ks ? Hnth Hks]; subst.
  destruct (items_said h ind k ltac:(intros t X; apply IH; [assumption|now apply Hs]) Htx Hap ks Hks) as (m & c & Hc & Hw & Hcon).
  assert (BI : forall n, Forall (fun b => blank b = true) (indent n)) by (intros i; eapply Forall_impl; [|apply indent_blank]; cbv beta; intros ? ->; reflexivity).
  assert (Htag : start_tag n ([60] ++ n ++ concat (map write_attribute a) ++ []) a).
  { exists (concat (map write_attribute a)), []. split; [reflexivity|]. split; [assumption|]. split; [exact (attributes_said a [] Hd Ha)|apply Forall_nil]. }
  assert (Hcont : is_content [] ([10] ++ c ++ indent ind) (map respaced_item k)).
  { assert (S0 : steady []) by (apply steady_end; reflexivity). apply content_blanks; [assumption|repeat constructor|].
    apply Hcon; [assumption|destruct k as [|[]]; reflexivity|]. intros k1 Hk1 ->. rewrite <- (app_nil_r (indent ind)). apply content_blanks; [assumption|apply BI|]. constructor. }
  exists (S m), (([60] ++ n ++ concat (map write_attribute a) ++ []) ++ [62] ++ ([10] ++ c ++ indent ind) ++ [60; 47] ++ n ++ [] ++ [62]). split; [|split; [|split]].
  - intros [|fuel] Hf; [lia|]. rewrite (describe_step fuel h e ind n a ks Hnth), Hc by lia. cbn [obind]. rewrite app_nil_r. repeat (rewrite <- !app_assoc; cbn [app]). reflexivity.
  - change (respaced (Elem n a k)) with (Elem n a (map respaced_item k)). apply el_full; [assumption|assumption|apply Forall_nil].
  - change (respaced (Elem n a k)) with (Elem n a (map respaced_item k)). cbn [app]. apply (root_full n ([60] ++ n ++ concat (map write_attribute a) ++ []) a ([10] ++ c ++ indent ind) _ [62]); [assumption|assumption|left; reflexivity].
  - assert (W : forall n, written (indent n)) by (intros i; eapply Forall_impl; [|apply indent_blank]; cbv beta; intros; lia).
    repeat apply written_app; auto using written_name, written_atts; try (repeat (apply Forall_cons; [lia|]); apply Forall_nil).
Qed.
Lemma described : forall t h e, everywhere sayable t -> is_tree h e t -> exists m d,
  (forall fuel, (m <= fuel)%nat -> describe fuel h e 0 = Ok d) /\ ok d /\ result d = Some (respaced t).
Proof.
  intros t h e Ht He. destruct (all_spoken t Ht h e O He) as (m & d & Hd & _ & Hroot & Hw). exists m, (d ++ [10]).
  assert (Hw' : written (d ++ [10])) by (apply written_app; [assumption|repeat (apply Forall_cons; [lia|]); apply Forall_nil]).
  destruct (written_lines _ Hw') as [El Hok]. split; [exact Hd|]. split; [exact Hok|]. apply result_iff; [assumption|]. rewrite El.
  exists [], [], [], [], d, [10]. split; [reflexivity|]. split; [auto|]. split; [apply Forall_nil|]. split; [auto|]. split; [constructor|]. split; [assumption|].
  apply misc_space; [right; right; reflexivity|constructor].
Qed.
