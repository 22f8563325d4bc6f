(** Proofs about messages. *)
Require Import Coq.Strings.String Coq.NArith.NArith Coq.Lists.List Coq.Bool.Bool Coq.Arith.Arith Coq.micromega.Lia.
Require Import Verif.Base Verif.Report_Model Verif.Report_Spec.
Require Verif.Describe_Model.
Import ListNotations.

Definition setting_of (s : state) (k : kind) : setting :=
  match k with KPrint => of_print s | KLog => of_log s | KWarning => of_warning s | KError => of_error s | KFatal => of_fatal s end.
(** What the variables are after a history. *)
Definition agrees (s : state) (cs : list call) : Prop :=
  stopped s = false /\ abort_on_errors s = strict cs /\ forall k, callback (setting_of s k) = asked k cs /\ (prefix (setting_of s k), suffix (setting_of s k)) = format k cs.
Definition decent (s : state) : Prop := forall k, exists p q, prefix (setting_of s k) = Some p /\ suffix (setting_of s k) = Some q /\ whole p /\ whole q.
Lemma latest_snoc {A} (f : call -> option A) cs c d : latest f (cs ++ [c]) d = match f c with Some y => y | None => latest f cs d end.
Proof. unfold latest. rewrite fold_left_app. reflexivity. Qed.
Lemma c_string_whole t : whole t -> c_string t = t.
Proof. induction 1 as [|c t C W IH]; cbn; [reflexivity|]. destruct c; [contradiction|]. rewrite IH. reflexivity. Qed.
Lemma start_agrees : agrees start [].
Proof. split; [reflexivity|]. split; [reflexivity|]. intros []; split; reflexivity. Qed.
Lemma start_decent : decent start.
Proof. intros []; eexists; eexists; (split; [reflexivity|]); (split; [reflexivity|]); split; unfold whole; vm_compute; repeat constructor; discriminate. Qed.
Lemma asked_other k cs c : (forall k' x, c <> SetCallback k' x) -> asked k (cs ++ [c]) = asked k cs.
Proof. intros N. unfold asked. rewrite latest_snoc. destruct c; try reflexivity. exfalso. eapply N. reflexivity. Qed.
Lemma format_other k cs c : (forall k' p q, c <> SetFormat k' p q) -> format k (cs ++ [c]) = format k cs.
Proof. intros N. destruct k; try reflexivity; unfold format; rewrite latest_snoc; destruct c; try reflexivity; exfalso; eapply N; reflexivity. Qed.
Lemma strict_other cs c : (forall b, c <> SetAbort b) -> strict (cs ++ [c]) = strict cs.
Proof. intros N. unfold strict. rewrite latest_snoc. destruct c; try reflexivity. exfalso. eapply N. reflexivity. Qed.
Lemma callback_agrees s cs k c : agrees s cs -> agrees (set_callback s k c) (cs ++ [SetCallback k c]).
Proof.
  intros (S & A & F). destruct s as [a b w e f ab o st]. split; [destruct k; exact S|]. split; [rewrite strict_other by discriminate; destruct k; exact A|].
  intros k'. rewrite format_other by discriminate. unfold asked. rewrite latest_snoc. cbv beta iota. specialize (F k'). unfold asked in F. destruct k, k'; cbn in *; split; try reflexivity; try apply F.
Qed.
Lemma format_agrees s cs k p q : agrees s cs -> agrees (set_format s k p q) (cs ++ [SetFormat k p q]).
Proof.
  intros (S & A & F). destruct s as [a b w e f ab o st]. split; [destruct k; exact S|]. split; [rewrite strict_other by discriminate; destruct k; exact A|].
  intros k'. rewrite asked_other by discriminate. unfold format. rewrite latest_snoc. cbv beta iota. specialize (F k'). unfold format in F. destruct k, k'; cbn in *; split; try reflexivity; try apply F.
Qed.
Lemma abort_agrees s cs b : agrees s cs -> agrees (set_abort s b) (cs ++ [SetAbort b]).
Proof.
  intros (S & A & F). split; [exact S|]. split; [unfold strict; rewrite latest_snoc; reflexivity|]. intros k. rewrite format_other, asked_other by discriminate. specialize (F k). destruct k; exact F.
Qed.
Definition glue (l : list (option text)) : text := List.concat (map (fun a => match a with Some t => t | None => [] end) l).
Lemma put_ok s c file l : Forall (fun a => exists t, a = Some t /\ whole t) l ->
  exists s', put s c file l = Ok s' /\ printed s' = printed s ++ [(match c with Some n => Callback n | None => file end, glue l)] /\
    stopped s' = stopped s /\ abort_on_errors s' = abort_on_errors s /\ forall k, setting_of s' k = setting_of s k.
Proof.
  intros F. unfold put. set (all := fix all (l : list (option text)) : outcome text := match l with [] => Ok [] | a :: l' => do t <- arg a; do u <- all l'; Ok (t ++ u) end).
  assert (E: all l = Ok (glue l)).
  { induction F as [|a l (t & -> & W) F IH]; [reflexivity|]. unfold glue. cbn [all map List.concat]. fold all. cbn [arg obind]. rewrite IH. cbn [obind]. unfold glue. rewrite (c_string_whole t W). reflexivity. }
  rewrite E. cbn [obind]. eexists. split; [reflexivity|]. cbn [printed stopped abort_on_errors]. repeat split.
Qed.
Lemma say_ok s cs k t : agrees s cs -> decent s -> whole t ->
  exists s' p q, say s k t = Ok s' /\ format k cs = (Some p, Some q) /\ printed s' = printed s ++ [(place_of k cs, p ++ t ++ q)] /\ stopped s' = ends k cs /\ decent s' /\ (stopped s' = false -> agrees s' (cs ++ [Say k t])).
Proof.
  intros (S & A & F) D W.
  assert (G: forall s', stopped s' = false -> abort_on_errors s' = abort_on_errors s -> (forall k, setting_of s' k = setting_of s k) -> agrees s' (cs ++ [Say k t])).
  { intros s' S' A' E. split; [exact S'|]. split; [rewrite strict_other by discriminate; congruence|]. intros k'. rewrite E, format_other, asked_other by discriminate. apply F. }
  assert (Dc: forall s', (forall k, setting_of s' k = setting_of s k) -> decent s') by (intros s' E k'; rewrite E; apply D).
  destruct (D k) as (p & q & Ep & Eq & Wp & Wq). destruct (F k) as (Fc & Ff). rewrite Ep, Eq in Ff.
  assert (L3: Forall (fun a => exists t, a = Some t /\ whole t) [prefix (setting_of s k); Some t; suffix (setting_of s k)]) by (rewrite Ep, Eq; repeat constructor; eauto).
  assert (C3: glue [prefix (setting_of s k); Some t; suffix (setting_of s k)] = p ++ t ++ q) by (rewrite Ep, Eq; unfold glue; cbn [map List.concat]; rewrite app_nil_r; reflexivity).
  unfold place_of. rewrite <- Fc. destruct k; cbn [say setting_of file_of ends] in *.
  - destruct (put_ok s (callback (of_print s)) Stdout [Some t]) as (s' & E & Pr & St & Ab & Se); [repeat constructor; eauto|]. exists s', [], []. split; [exact E|]. split; [reflexivity|].
    split; [rewrite Pr; unfold glue; cbn [map List.concat app]; rewrite !app_nil_r; reflexivity|]. split; [congruence|]. split; [auto|]. intros _. apply G; auto; congruence.
  - destruct (put_ok s (callback (of_log s)) Stdout _ L3) as (s' & E & Pr & St & Ab & Se). rewrite C3 in Pr. exists s', p, q. split; [exact E|]. split; [congruence|]. split; [exact Pr|]. split; [congruence|]. split; [auto|]. intros _. apply G; auto; congruence.
  - destruct (put_ok s (callback (of_warning s)) Stdout _ L3) as (s' & E & Pr & St & Ab & Se). rewrite C3 in Pr. exists s', p, q. split; [exact E|]. split; [congruence|]. split; [exact Pr|]. split; [congruence|]. split; [auto|]. intros _. apply G; auto; congruence.
  - destruct (put_ok s (callback (of_error s)) Stderr _ L3) as (s' & E & Pr & St & Ab & Se). rewrite C3 in Pr. rewrite E. cbn [obind]. rewrite Ab, A. destruct (strict cs) eqn:Es.
    + exists (abort s'), p, q. split; [reflexivity|]. split; [congruence|]. split; [exact Pr|]. split; [reflexivity|]. split; [|discriminate]. apply Dc. intros k'. rewrite <- (Se k'). destruct k'; reflexivity.
    + exists s', p, q. split; [reflexivity|]. split; [congruence|]. split; [exact Pr|]. split; [congruence|]. split; [auto|]. intros _. apply G; auto; congruence.
  - destruct (put_ok s (callback (of_fatal s)) Stderr _ L3) as (s' & E & Pr & St & Ab & Se). rewrite C3 in Pr. rewrite E. cbn [obind]. exists (abort s'), p, q. split; [reflexivity|]. split; [congruence|]. split; [exact Pr|]. split; [reflexivity|]. split; [|discriminate]. apply Dc. intros k'. rewrite <- (Se k'). destruct k'; reflexivity.
Qed.
Lemma set_callback_decent s k c : decent s -> decent (set_callback s k c).
Proof. intros D k'. specialize (D k'). destruct s as [a b w e f ab o st]. destruct k, k'; exact D. Qed.
Lemma set_format_decent s k p q : decent s -> whole p -> whole q -> decent (set_format s k (Some p) (Some q)).
Proof. intros D P Q k'. specialize (D k'). destruct s as [a b w e f ab o st]. destruct k, k'; cbn in *; try exact D; eauto 8. Qed.
Lemma set_callback_out s k c : printed (set_callback s k c) = printed s. Proof. destruct s, k; reflexivity. Qed.
Lemma set_format_out s k p q : printed (set_format s k p q) = printed s. Proof. destruct s, k; reflexivity. Qed.
Lemma still : forall cs s, stopped s = true -> run s cs = Ok s.
Proof. induction cs as [|c cs IH]; intros s S; cbn [run]; [reflexivity|]. unfold step. rewrite S. cbn [obind]. apply IH, S. Qed.
Lemma run_ok : forall cs s before, agrees s before -> decent s -> Forall proper cs -> exists s', run s cs = Ok s' /\ printed s' = printed s ++ expected before cs.
Proof.
  induction cs as [|c cs IH]; intros s before A D P; cbn [run expected]; [exists s; rewrite app_nil_r; auto|]. inversion P as [|? ? Pc Pcs]; subst. unfold step. rewrite (proj1 A).
  destruct c as [k c|k p q|b|k t]; cbn [obind].
  - destruct (IH _ _ (callback_agrees s before k c A) (set_callback_decent s k c D) Pcs) as (s' & E & O). exists s'. rewrite set_callback_out in O. auto.
  - destruct Pc as (p' & q' & -> & -> & Wp & Wq). destruct (IH _ _ (format_agrees s before k _ _ A) (set_format_decent s k p' q' D Wp Wq) Pcs) as (s' & E & O). exists s'. rewrite set_format_out in O. auto.
  - assert (D': decent (set_abort s b)) by (intros k'; specialize (D k'); destruct k'; exact D). destruct (IH _ _ (abort_agrees s before b A) D' Pcs) as (s' & E & O). exists s'. auto.
  - destruct (say_ok s before k t A D Pc) as (s1 & p & q & E & Ff & O & St & D1 & A1). rewrite E. cbn [obind]. rewrite Ff. cbn [fst snd]. destruct (ends k before).
    + rewrite (still cs s1 St). exists s1. auto.
    + destruct (IH s1 _ (A1 St) D1 Pcs) as (s' & E' & O'). exists s'. split; [exact E'|]. rewrite O', O, <- app_assoc. reflexivity.
Qed.
Lemma history cs : Forall proper cs -> exists s, run start cs = Ok s /\ printed s = expected [] cs.
Proof. intros P. exact (run_ok cs start [] start_agrees start_decent P). Qed.
