(** Proofs that descriptions tell simple objects apart. *)
Require Import Coq.Strings.String Coq.Strings.Ascii Coq.ZArith.ZArith Coq.NArith.NArith Coq.Lists.List Coq.Bool.Bool Coq.micromega.Lia.
Require Import Verif.Base Verif.Strtonum_Model Verif.JSON_Model Verif.Predicate_Model Verif.Describe_Model Verif.Describe_Spec Verif.Describe_Proofs.
Import ListNotations.
Local Open Scope N_scope.

(** ** Characters *)
Lemma split_first (f : N -> bool) a b c d (x y : bytes) :
  Forall (fun z => f z = false) a -> Forall (fun z => f z = false) b -> f c = true -> f d = true -> a ++ c :: x = b ++ d :: y -> a = b /\ c = d /\ x = y.
Proof.
  revert b. induction a as [|z a IH]; intros [|z' b] A B C D E; cbn [app] in E.
  - injection E as -> ->. auto.
  - inversion B; subst. injection E as -> _. congruence.
  - inversion A; subst. injection E as <- _. congruence.
  - inversion A; inversion B; subst. injection E as -> E. destruct (IH _ H2 H6 C D E) as (-> & -> & ->). auto.
Qed.
Lemma no_first (f : N -> bool) (a b : bytes) c x : Forall (fun z => f z = false) a -> f c = true -> a = b ++ c :: x -> False.
Proof. intros A C ->. apply Forall_app in A. destruct A as (_ & A). inversion A. congruence. Qed.
Definition numeral (b : N) : Prop := 48 <= b <= 57 \/ b = 45.
Lemma digits_numeral : forall k n acc, Forall numeral acc -> Forall numeral (print_digits k n acc).
Proof.
  induction k as [|k IH]; intros n acc F; cbn [print_digits]; [exact F|].
  assert (F' : Forall numeral (48 + n mod 10 :: acc)). { constructor; [|exact F]. left. pose proof (N.mod_lt n 10 ltac:(discriminate)) as L. revert L. generalize (n mod 10). intros m L. split; lia. }
  destruct (n / 10 =? 0); [exact F'|]. apply IH, F'.
Qed.
Lemma int_numeral z : Forall numeral (print_int z).
Proof. unfold print_int. destruct (z <? 0)%Z; [constructor; [right; reflexivity|]|]; apply digits_numeral; constructor. Qed.
Lemma numeral_clean t : Forall numeral t -> clean t.
Proof. apply Forall_impl. intros b B. unfold special. destruct B as [B| ->]; [|reflexivity]. destruct (N.eqb_spec b 44), (N.eqb_spec b 10), (N.eqb_spec b 61); try reflexivity; lia. Qed.
Lemma clean_app a b : clean a -> clean b -> clean (a ++ b).
Proof. intros A B. apply Forall_app. split; assumption. Qed.
Lemma clean_ascii s : forallb (fun b => negb (special b)) (ascii s) = true -> clean (ascii s).
Proof. intros E. apply Forall_forall. intros b I. rewrite forallb_forall in E. specialize (E b I). destruct (special b); [discriminate|reflexivity]. Qed.
Ltac text := apply clean_ascii; reflexivity.
Lemma nums_clean l : clean (format_nums [32] l).
Proof.
  induction l as [|x l IH]; [constructor|]. cbn [format_nums]. apply clean_app.
  - destruct x; [apply numeral_clean, int_numeral|constructor].
  - destruct l; [constructor|]. apply clean_app; [constructor; [reflexivity|constructor]|exact IH].
Qed.

(** ** What follows a description: the end, a comma and the end of the line, the end of the line, or an
    equal sign *)
Inductive stops : bytes -> Prop :=
| St_end : stops []
| St_comma x : stops (44 :: 10 :: x)
| St_line x : stops (10 :: x)
| St_equal x : stops (32 :: 61 :: x).
Lemma other_other a b s s' : clean a -> clean b -> stops s -> stops s' -> a ++ s = b ++ s' -> a = b /\ s = s'.
Proof.
  intros A B S S' E.
  assert (A' : Forall (fun z => special z = false) (a ++ [32])) by (apply clean_app; [exact A|constructor; [reflexivity|constructor]]).
  assert (B' : Forall (fun z => special z = false) (b ++ [32])) by (apply clean_app; [exact B|constructor; [reflexivity|constructor]]).
  destruct S as [|x|x|x]; destruct S' as [|y|y|y]; rewrite ?app_nil_r in E.
  - auto.
  - exfalso. exact (no_first special _ _ _ _ A (eq_refl : special 44 = true) E).
  - exfalso. exact (no_first special _ _ _ _ A (eq_refl : special 10 = true) E).
  - exfalso. change (b ++ 32 :: 61 :: y) with (b ++ [32] ++ 61 :: y) in E. rewrite app_assoc in E. exact (no_first special _ _ _ _ A (eq_refl : special 61 = true) E).
  - exfalso. symmetry in E. exact (no_first special _ _ _ _ B (eq_refl : special 44 = true) E).
  - destruct (split_first special _ _ _ _ _ _ A B (eq_refl : special 44 = true) (eq_refl : special 44 = true) E) as (-> & _ & <-). auto.
  - destruct (split_first special _ _ _ _ _ _ A B (eq_refl : special 44 = true) (eq_refl : special 10 = true) E) as (_ & X & _). discriminate.
  - change (b ++ 32 :: 61 :: y) with (b ++ [32] ++ 61 :: y) in E. rewrite app_assoc in E.
    destruct (split_first special _ _ _ _ _ _ A B' (eq_refl : special 44 = true) (eq_refl : special 61 = true) E) as (_ & X & _). discriminate.
  - exfalso. symmetry in E. exact (no_first special _ _ _ _ B (eq_refl : special 10 = true) E).
  - destruct (split_first special _ _ _ _ _ _ A B (eq_refl : special 10 = true) (eq_refl : special 44 = true) E) as (_ & X & _). discriminate.
  - destruct (split_first special _ _ _ _ _ _ A B (eq_refl : special 10 = true) (eq_refl : special 10 = true) E) as (-> & _ & ->). auto.
  - change (b ++ 32 :: 61 :: y) with (b ++ [32] ++ 61 :: y) in E. rewrite app_assoc in E.
    destruct (split_first special _ _ _ _ _ _ A B' (eq_refl : special 10 = true) (eq_refl : special 61 = true) E) as (_ & X & _). discriminate.
  - exfalso. symmetry in E. change (a ++ 32 :: 61 :: x) with (a ++ [32] ++ 61 :: x) in E. rewrite app_assoc in E. exact (no_first special _ _ _ _ B (eq_refl : special 61 = true) E).
  - change (a ++ 32 :: 61 :: x) with (a ++ [32] ++ 61 :: x) in E. rewrite app_assoc in E.
    destruct (split_first special _ _ _ _ _ _ A' B (eq_refl : special 61 = true) (eq_refl : special 44 = true) E) as (_ & X & _). discriminate.
  - change (a ++ 32 :: 61 :: x) with (a ++ [32] ++ 61 :: x) in E. rewrite app_assoc in E.
    destruct (split_first special _ _ _ _ _ _ A' B (eq_refl : special 61 = true) (eq_refl : special 10 = true) E) as (_ & X & _). discriminate.
  - change (a ++ 32 :: 61 :: x) with (a ++ [32] ++ 61 :: x) in E. change (b ++ 32 :: 61 :: y) with (b ++ [32] ++ 61 :: y) in E. rewrite !app_assoc in E.
    destruct (split_first special _ _ _ _ _ _ A' B' (eq_refl : special 61 = true) (eq_refl : special 61 = true) E) as (X & _ & ->).
    apply app_inv_tail in X. auto.
Qed.
(** A collection goes on with a comma and a space. *)
Lemma other_collection a b s x : clean a -> clean b -> stops s -> a ++ s = b ++ 44 :: 32 :: x -> False.
Proof.
  intros A B S E.
  assert (A' : Forall (fun z => special z = false) (a ++ [32])) by (apply clean_app; [exact A|constructor; [reflexivity|constructor]]).
  destruct S as [|y|y|y]; rewrite ?app_nil_r in E.
  - exact (no_first special _ _ _ _ A (eq_refl : special 44 = true) E).
  - destruct (split_first special _ _ _ _ _ _ A B (eq_refl : special 44 = true) (eq_refl : special 44 = true) E) as (_ & _ & X). discriminate.
  - destruct (split_first special _ _ _ _ _ _ A B (eq_refl : special 10 = true) (eq_refl : special 44 = true) E) as (_ & X & _). discriminate.
  - change (a ++ 32 :: 61 :: y) with (a ++ [32] ++ 61 :: y) in E. rewrite app_assoc in E.
    destruct (split_first special _ _ _ _ _ _ A' B (eq_refl : special 61 = true) (eq_refl : special 44 = true) E) as (_ & X & _). discriminate.
Qed.
Lemma header_split cls cls' n n' x y : clean cls -> clean cls' ->
  (cls ++ ascii ", " ++ print_int n ++ ascii " objects = (") ++ x = (cls' ++ ascii ", " ++ print_int n' ++ ascii " objects = (") ++ y -> cls = cls' /\ x = y.
Proof.
  intros C C' E. rewrite <- !app_assoc in E. change (ascii ", ") with (44 :: [32]) in E. cbn [app] in E.
  destruct (split_first special _ _ _ _ _ _ C C' (eq_refl : special 44 = true) (eq_refl : special 44 = true) E) as (-> & _ & E'). split; [reflexivity|].
  injection E' as E'. change (ascii " objects = (") with (32 :: ascii "objects = (") in E'. cbn [app] in E'.
  assert (NS : forall z, Forall (fun b => (b =? 32) = false) (print_int z)).
  { intros z. apply (Forall_impl _) with (2 := int_numeral z). intros b B. apply N.eqb_neq. destruct B; lia. }
  destruct (split_first (fun b => b =? 32) _ _ _ _ _ _ (NS n) (NS n') (eq_refl : (32 =? 32) = true) (eq_refl : (32 =? 32) = true) E') as (_ & _ & E''). injection E'' as E''. exact E''.
Qed.

Section Alike.
  Variable keyed : bytes -> bool.
  Variables h h' : heap.
  Hypothesis SH : Forall (simple keyed) h.
  Hypothesis SH' : Forall (simple keyed) h'.
  Hypothesis SM : small h.
  Hypothesis SM' : small h'.
  Notation dh := (describe lower_half h).
  Notation dh' := (describe lower_half h').
  Lemma no_text g r : Forall (simple keyed) g -> is_text g r = false.
  Proof.
    intros F. unfold is_text. destruct r as [p|]; [|reflexivity]. destruct (nth_error g p) as [o|] eqn:N; [|reflexivity].
    apply nth_error_In in N. rewrite Forall_forall in F. specialize (F _ N). destruct o; try reflexivity. contradiction.
  Qed.
  Lemma quoted_h r t : quoted h r t = t.
  Proof. unfold quoted. rewrite (no_text h r SH). reflexivity. Qed.
  Lemma quoted_h' r t : quoted h' r t = t.
  Proof. unfold quoted. rewrite (no_text h' r SH'). reflexivity. Qed.
  (** Objects that are not collections have clean descriptions. *)
  Lemma other_clean g f r t : Forall (simple keyed) g -> is_collection g r = false -> describe lower_half g f r = Ok t -> clean t.
  Proof.
    intros F NC E. destruct f as [|f]; [discriminate|]. cbn [describe] in E. destruct r as [p|]; [|injection E as <-; text].
    unfold is_collection in NC. destruct (nth_error g p) as [o|] eqn:N; [|discriminate].
    apply nth_error_In in N. rewrite Forall_forall in F. specialize (F _ N). destruct o as [s|l|b|cls n|cls s|cls|o a ka b kb|cls l|cls l]; try contradiction; try discriminate; apply ok_inj in E; subst t; cbn [simple] in F.
    - apply nums_clean.
    - destruct b; text.
    - repeat apply clean_app; [exact F|text|apply numeral_clean, int_numeral|text].
    - destruct F as (F1 & F2). repeat apply clean_app; [exact F1|text| |text]. destruct s; [exact F2|text].
    - exact F.
  Qed.
  Lemma stops_end s : stops (ascii (String "010" ")") ++ s).
  Proof. constructor. Qed.
  Lemma tail_stops g d n l t s : print_members g d (S n) l = Ok t -> stops (t ++ ascii (String "010" ")") ++ s).
  Proof. destruct l as [|r l]; intros E; cbn [print_members] in E; [injection E as <-; constructor|]. open E. open E. apply ok_inj in E. subst t. constructor. Qed.
  Lemma tail_stops' g d n l t s : print_entries g d (S n) l = Ok t -> stops (t ++ ascii (String "010" ")") ++ s).
  Proof. destruct l as [|[k r] l]; intros E; cbn [print_entries] in E; [injection E as <-; constructor|]. open E. open E. open E. apply ok_inj in E. subst t. constructor. Qed.

  Section Members.
    Variables (f f' : nat).
    Hypothesis IH : forall r r' t t' s s', dh f r = Ok t -> dh' f' r' = Ok t' -> stops s -> stops s' -> t ++ s = t' ++ s' -> alike h h' r r' /\ t = t' /\ s = s'.
    Lemma members_alike : forall l l' n t t' s s', print_members h (dh f) n l = Ok t -> print_members h' (dh' f') n l' = Ok t' ->
      t ++ ascii (String "010" ")") ++ s = t' ++ ascii (String "010" ")") ++ s' -> Forall2 (alike h h') l l' /\ t = t' /\ s = s'.
    Proof.
      induction l as [|r l IHl]; intros [|r' l'] n t t' s s' E E' EQ; cbn [print_members] in E, E'.
      - apply ok_inj in E. apply ok_inj in E'. subst t t'. cbn [app] in EQ. apply app_inv_head in EQ. auto.
      - exfalso. open E'. open E'. apply ok_inj in E. apply ok_inj in E'. subst t t'. destruct n; discriminate.
      - exfalso. open E. open E. apply ok_inj in E. apply ok_inj in E'. subst t t'. destruct n; discriminate.
      - open E. open E. open E'. open E'. apply ok_inj in E. apply ok_inj in E'. subst t t'. rewrite quoted_h, quoted_h' in *. rewrite <- !app_assoc in EQ.
        apply app_inv_head in EQ. destruct (IH _ _ _ _ _ _ E0 E2 (tail_stops _ _ _ _ _ _ E1) (tail_stops _ _ _ _ _ _ E3) EQ) as (A & -> & EQ').
        destruct (IHl _ _ _ _ _ _ E1 E3 EQ') as (F & -> & ->). auto.
    Qed.
    Lemma entries_alike : forall l l' n t t' s s', print_entries h (dh f) n l = Ok t -> print_entries h' (dh' f') n l' = Ok t' ->
      t ++ ascii (String "010" ")") ++ s = t' ++ ascii (String "010" ")") ++ s' ->
      Forall2 (fun e e' => alike h h' (fst e) (fst e') /\ alike h h' (snd e) (snd e')) l l' /\ t = t' /\ s = s'.
    Proof.
      induction l as [|[k r] l IHl]; intros [|[k' r'] l'] n t t' s s' E E' EQ; cbn [print_entries] in E, E'.
      - apply ok_inj in E. apply ok_inj in E'. subst t t'. cbn [app] in EQ. apply app_inv_head in EQ. auto.
      - exfalso. open E'. open E'. open E'. apply ok_inj in E. apply ok_inj in E'. subst t t'. destruct n; discriminate.
      - exfalso. open E. open E. open E. apply ok_inj in E. apply ok_inj in E'. subst t t'. destruct n; discriminate.
      - open E. open E. open E. open E'. open E'. open E'. apply ok_inj in E. apply ok_inj in E'. subst t t'. rewrite !quoted_h, !quoted_h' in *. rewrite <- !app_assoc in EQ.
        apply app_inv_head in EQ. destruct (IH _ _ _ _ _ _ E0 E3 (St_equal _) (St_equal _) EQ) as (A & -> & EQ'). injection EQ' as EQ'.
        destruct (IH _ _ _ _ _ _ E1 E4 (tail_stops' _ _ _ _ _ _ E2) (tail_stops' _ _ _ _ _ _ E5) EQ') as (B & -> & EQ2).
        destruct (IHl _ _ _ _ _ _ E2 E5 EQ2) as (F & -> & ->). split; [constructor; [split; assumption|exact F]|split; reflexivity].
    Qed.
  End Members.

  Lemma coll_text g f p t : describe lower_half g (S f) (Some p) = Ok t -> is_collection g (Some p) = true ->
    exists cls n m, t = (cls ++ ascii ", " ++ print_int n ++ ascii " objects = (") ++ m ++ ascii (String "010" ")") /\
      ((exists l, nth_error g p = Some (Collection cls l) /\ print_members g (describe lower_half g f) 0 l = Ok m) \/
       (exists l, nth_error g p = Some (Keyed cls l) /\ print_entries g (describe lower_half g f) 0 l = Ok m)).
  Proof.
    intros E K. cbn [describe] in E. unfold is_collection in K. destruct (nth_error g p) as [[s|l|b|cls n|cls s|cls|o a ka b kb|cls l|cls l]|] eqn:N; try discriminate;
      open E; unfold header in E0; open E0; apply ok_inj in E0; rewrite <- E0 in E; open E; apply ok_inj in E; subst t; exists cls, a0, a1; (split; [reflexivity|]); [left|right]; exists l; split; [reflexivity|assumption|reflexivity|assumption].
  Qed.
  Lemma simple_cls g p cls l : Forall (simple keyed) g -> nth_error g p = Some (Collection cls l) -> clean cls /\ keyed cls = false.
  Proof. intros F N. apply nth_error_In in N. rewrite Forall_forall in F. exact (F _ N). Qed.
  Lemma simple_cls' g p cls l : Forall (simple keyed) g -> nth_error g p = Some (Keyed cls l) -> clean cls /\ keyed cls = true.
  Proof. intros F N. apply nth_error_In in N. rewrite Forall_forall in F. exact (F _ N). Qed.

  Lemma alike_text : forall f f' r r' t t' s s', dh f r = Ok t -> dh' f' r' = Ok t' -> stops s -> stops s' -> t ++ s = t' ++ s' -> alike h h' r r' /\ t = t' /\ s = s'.
  Proof.
    induction f as [|f IH]; intros f' r r' t t' s s' E E' S S' EQ; [discriminate|].
    destruct f' as [|f']; [discriminate|].
    destruct (is_collection h r) eqn:K; destruct (is_collection h' r') eqn:K'.
    - destruct r as [p|]; [|discriminate]. destruct r' as [p'|]; [|discriminate].
      destruct (coll_text h f p t E K) as (cls & n & m & -> & M). destruct (coll_text h' f' p' t' E' K') as (cls' & n' & m' & -> & M').
      assert (CC : clean cls). { destruct M as [(l & N & _)|(l & N & _)]; [apply (simple_cls h p cls l SH N)|apply (simple_cls' h p cls l SH N)]. }
      assert (CC' : clean cls'). { destruct M' as [(l & N & _)|(l & N & _)]; [apply (simple_cls h' p' cls' l SH' N)|apply (simple_cls' h' p' cls' l SH' N)]. }
      pose proof EQ as EQ0. rewrite <- (app_assoc _ (m ++ _)), <- (app_assoc _ (m' ++ _)) in EQ.
      destruct (header_split _ _ _ _ _ _ CC CC' EQ) as (-> & EQ1). rewrite <- !app_assoc in EQ1.
      assert (X : alike h h' (Some p) (Some p') /\ s = s').
      { destruct M as [(l & N & P)|(l & N & P)]; destruct M' as [(l' & N' & P')|(l' & N' & P')].
        - destruct (members_alike f f' (IH f') _ _ _ _ _ _ _ P P' EQ1) as (F & _ & <-). split; [eapply A_collection; eassumption|reflexivity].
        - pose proof (simple_cls _ _ _ _ SH N) as (_ & X). pose proof (simple_cls' _ _ _ _ SH' N') as (_ & X'). congruence.
        - pose proof (simple_cls' _ _ _ _ SH N) as (_ & X). pose proof (simple_cls _ _ _ _ SH' N') as (_ & X'). congruence.
        - destruct (entries_alike f f' (IH f') _ _ _ _ _ _ _ P P' EQ1) as (F & _ & <-). split; [eapply A_keyed; eassumption|reflexivity]. }
      destruct X as (X & <-). apply app_inv_tail in EQ0. auto.
    - exfalso. destruct r as [p|]; [|discriminate]. destruct (coll_text h f p t E K) as (cls & n & m & -> & M).
      assert (CC : clean cls). { destruct M as [(l & N & _)|(l & N & _)]; [apply (simple_cls h p cls l SH N)|apply (simple_cls' h p cls l SH N)]. }
      symmetry in EQ. rewrite <- !app_assoc in EQ. exact (other_collection _ _ _ _ (other_clean _ _ _ _ SH' K' E') CC S' EQ).
    - exfalso. destruct r' as [p|]; [|discriminate]. destruct (coll_text h' f' p t' E' K') as (cls & n & m & -> & M).
      assert (CC : clean cls). { destruct M as [(l & N & _)|(l & N & _)]; [apply (simple_cls h' p cls l SH' N)|apply (simple_cls' h' p cls l SH' N)]. }
      rewrite <- !app_assoc in EQ. exact (other_collection _ _ _ _ (other_clean _ _ _ _ SH K E) CC S EQ).
    - destruct (other_other _ _ _ _ (other_clean _ _ _ _ SH K E) (other_clean _ _ _ _ SH' K' E') S S' EQ) as (-> & ->).
      split; [|auto]. eapply A_other; [exact K|exact K'|exact (describe_described h SM _ _ _ E)|exact (describe_described h' SM' _ _ _ E')].
  Qed.
End Alike.
Lemma tells_apart keyed h h' r r' f f' t : Forall (simple keyed) h -> Forall (simple keyed) h' -> small h -> small h' ->
  describe lower_half h f r = Ok t -> describe lower_half h' f' r' = Ok t -> alike h h' r r'.
Proof. intros S S' M M' E E'. exact (proj1 (alike_text keyed h h' S S' M M' f f' r r' t t [] [] E E' St_end St_end eq_refl)). Qed.
