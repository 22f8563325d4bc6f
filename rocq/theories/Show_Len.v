(** No call forgets an object: the number of objects made so far never falls. *)
Require Import Coq.Lists.List Coq.Bool.Bool Coq.Arith.Arith Coq.micromega.Lia.
Require Import Verif.Base Verif.Own_Model Verif.Own_Spec Verif.Own_Proofs Verif.Own_Calls Verif.Show_Model Verif.Show_Spec.
Require Verif.HashTable_Model.
Import ListNotations.

Definition size (s : state) : nat := length (cells s).
Lemma upd_size {A} : forall (l : list A) i x, length (upd l i x) = length l.
Proof. induction l as [|y l IH]; intros [|i] x; cbn; auto. Qed.
Lemma set_cell_size s x c : size (set_cell s x c) = size s. Proof. unfold size. cbn [set_cell cells]. apply upd_size. Qed.
Definition level (s : state) (r : outcome state) : Prop := forall s', r = Ok s' -> size s' = size s.
Lemma level_ok s : level s (Ok s). Proof. intros s' E. congruence. Qed.
Lemma level_bind s r f : level s r -> (forall s1, level s1 (f s1)) -> level s (obind r f).
Proof. intros H F s' E. apply bind_ok in E. destruct E as (s1 & E1 & E). rewrite (F s1 s' E). apply H, E1. Qed.
Lemma level_val {A} s (r : outcome A) f : (forall a, level s (f a)) -> level s (obind r f).
Proof. intros F s' E. apply bind_ok in E. destruct E as (a & _ & E). exact (F a s' E). Qed.
Lemma level_fail s : level s Fatal /\ level s UB /\ level s NoFuel. Proof. repeat split; intros s' E; discriminate. Qed.
Lemma level_retain s r : level s (retain s r).
Proof. intros s' E. destruct r as [x|]; cbn [retain] in E; [|congruence]. destruct (nth_error (cells s) x) as [[[|n] b|]|]; try discriminate. injection E as <-. apply set_cell_size. Qed.
Lemma level_retain_all : forall xs s, level s (retain_all s xs).
Proof. induction xs as [|x xs IH]; intros s; cbn [retain_all]; [apply level_ok|]. apply level_bind; [apply level_retain|auto]. Qed.
Lemma level_drop : forall n s xs, level s (drop n s xs).
Proof.
  induction n as [|n IH]; intros s [|x xs] s' E; cbn [drop] in E; try congruence. destruct (nth_error (cells s) x) as [[[|[|k]] b|]|]; try discriminate; rewrite (IH _ _ _ E); apply set_cell_size.
Qed.
Lemma level_release s xs : level s (release s xs). Proof. apply level_drop. Qed.
Lemma level_body s x b : level s (set_body s x b).
Proof. intros s' E. unfold set_body in E. destruct (nth_error (cells s) x) as [[n d|]|]; try discriminate. injection E as <-. apply set_cell_size. Qed.
Lemma level_list s a l : level s (set_list s a l).
Proof. unfold set_list. apply level_val. intros [|m|m|m|m|p q]; try apply level_fail; apply level_body. Qed.
Ltac flat := repeat first [apply level_ok|apply level_fail|apply level_retain|apply level_retain_all|apply level_release|apply level_body|apply level_list|assumption
  |apply level_bind; [|intros]|apply level_val; intros].
Lemma level_over : forall xs s a i, level s (overwrite s a i xs).
Proof.
  induction xs as [|x xs IH]; intros s a i; cbn [overwrite]; [apply level_ok|]. apply level_bind; [apply level_retain|]. intros s1. apply level_val. intros l. cbv zeta.
  apply level_bind; [apply level_list|]. intros s2. apply level_bind; [apply level_release|]. intros s3. apply level_bind; [apply level_list|]. intros s4. apply IH.
Qed.
Lemma level_insert : forall xs s a i, level s (list_insert s a i xs).
Proof.
  induction xs as [|x xs IH]; intros s a i; cbn [list_insert]; [apply level_ok|]. apply level_bind; [apply level_retain|]. intros s1. apply level_val. intros l. apply level_bind; [apply level_list|]. intros s2. apply IH.
Qed.
Lemma level_remove s a i n : level s (list_remove s a i n).
Proof. unfold list_remove. apply level_val. intros l. apply level_bind; [apply level_list|]. intros s1. apply level_release. Qed.
Lemma level_array s a i n xs : level s (array_splice s a i n xs).
Proof.
  unfold array_splice. cbv zeta. apply level_bind; [apply level_over|]. intros s1. apply level_val. intros l. destruct (n <? length xs); apply level_bind; intros; first [apply level_retain_all|apply level_list|apply level_release].
Qed.
Lemma level_splice s a i n xs : level s (splice s a i n xs).
Proof.
  unfold splice. apply level_val. intros [|l|l|l|l|p q]; try apply level_fail; destruct (length l <? i + n); try apply level_ok; [apply level_array|]. apply level_bind; [apply level_remove|]. intros s1. apply level_insert.
Qed.
Lemma level_splice_all s a i n c : level s (splice_all s a i n c).
Proof.
  unfold splice_all. apply level_val. intros [|l|l|l|l|p q]; try apply level_fail; destruct (length l <? i + n); try apply level_ok; (apply level_bind; [apply level_remove|]); intros s1; apply level_val; intros xs; apply level_insert.
Qed.
Section Keys.
  Variable keq : nat -> nat -> bool.
  Lemma level_put s d k v p : level s (put keq s d k v p).
  Proof.
    unfold put. apply level_val. intros [|l|l|es|es|x y]; try apply level_fail; [unfold hash_put|unfold tree_put].
    all: apply level_bind; [apply level_retain|]; intros s1; apply level_bind; [|intros; apply level_release]; destruct (find_key keq es k) as [(k', old)|]; destruct p; try apply level_ok; try destruct (same old v); try apply level_ok.
    all: repeat (apply level_bind; [first [apply level_retain|apply level_body|apply level_release]|intros]); first [apply level_body|apply level_release|apply level_retain].
  Qed.
  Lemma level_take_out s d k : level s (remove keq s d k).
  Proof.
    unfold remove. apply level_val. intros b. apply level_val. intros _. destruct b as [|l|l|es|es|x y]; try apply level_fail; destruct (find_key keq es k) as [(k', v)|]; try apply level_ok; (apply level_bind; [apply level_body|]); intros; apply level_release.
  Qed.
  Lemma level_clear s d : level s (remove_all s d).
  Proof. unfold remove_all. apply level_val. intros [|l|l|es|es|x y]; try apply level_fail; (apply level_bind; [apply level_body|]); intros; apply level_release. Qed.
  Lemma step_size s o s' : step keq s o = Ok s' -> size s <= size s'.
  Proof.
    assert (W: forall r : outcome state, level s r -> r = Ok s' -> size s <= size s') by (intros r H E; rewrite (H s' E); lia).
    destruct o as [b|a b|x|x|a i n xs|a i n c|d k v p|d k|d]; cbn [step]; intros E.
    - destruct (members b); injection E as <-; [|lia]. unfold size. cbn [add cells]. rewrite app_length. lia.
    - apply bind_ok in E. destruct E as (s1 & E1 & E). apply bind_ok in E. destruct E as (s2 & E2 & E). injection E as <-. pose proof (level_retain s a s1 E1). pose proof (level_retain s1 b s2 E2).
      unfold size in *. cbn [add cells]. rewrite app_length. lia.
    - apply bind_ok in E. destruct E as (s1 & E1 & E). injection E as <-. pose proof (level_retain s (Some x) s1 E1). unfold size in *. cbn [cells]. lia.
    - pose proof (level_release _ _ s' E) as H. unfold size in *. cbn [cells] in H. lia.
    - exact (W _ (level_splice s a i n xs) E).
    - exact (W _ (level_splice_all s a i n c) E).
    - exact (W _ (level_put s d k v p) E).
    - exact (W _ (level_take_out s d k) E).
    - exact (W _ (level_clear s d) E).
  Qed.
  (** Only arrays that were made show anything. *)
  Definition known (w : world) : Prop := Forall (fun e => fst e < size (own w)) (shows w).
  Lemma call_known w c w' : known w -> do_call keq w c = Ok w' -> known w' /\ size (own w) <= size (own w').
  Proof.
    intros K E. assert (Up: forall s bl, size (own w) <= size s -> known (mkW s bl (shows w)) /\ size (own w) <= size s).
    { intros s bl L. split; [|exact L]. apply (Forall_impl _) with (2 := K). cbn [own]. intros e H. lia. }
    destruct c as [o|l|k i r|k|k n|y|y]; cbn [do_call] in E.
    - apply bind_ok in E. destruct E as (s & Es & E). injection E as <-. apply Up. exact (step_size _ _ _ Es).
    - injection E as <-. apply Up. reflexivity.
    - destruct (nth_error (blocks w) k) as [[m|]|]; try discriminate. destruct (i <? length m); try discriminate. injection E as <-. apply Up. reflexivity.
    - destruct (nth_error (blocks w) k) as [[m|]|]; try discriminate. injection E as <-. apply Up. reflexivity.
    - injection E as <-. assert (G: size (add (own w) Leaf) = S (size (own w))) by (unfold size; cbn [add cells]; rewrite app_length; cbn; lia). split; [|change (size (own w) <= size (add (own w) Leaf)); lia].
      apply Forall_cons; [change (size (own w) < size (add (own w) Leaf)); lia|]. apply (Forall_impl _) with (2 := K). intros e H. change (fst e < size (add (own w) Leaf)). lia.
    - unfold copy in E. destruct (shown w y); [|discriminate]. apply bind_ok in E. destruct E as (s & Es & E). injection E as <-. apply Up. pose proof (level_retain _ _ _ Es) as H. unfold size in *. cbn [own cells]. lia.
    - unfold mutable_copy in E. apply bind_ok in E. destruct E as (l & _ & E). apply bind_ok in E. destruct E as (s & Es & E). injection E as <-. apply Up. pose proof (level_insert _ _ _ _ _ Es) as H. change (size (own w) <= size s). rewrite H. unfold size. cbn [add cells]. rewrite app_length. lia.
  Qed.
  Lemma calls_known : forall cs w w', known w -> calls keq w cs = Ok w' -> known w'.
  Proof. induction cs as [|c cs IH]; intros w w' K E; cbn [calls] in E; [congruence|]. apply bind_ok in E. destruct E as (w1 & E1 & E). exact (IH w1 w' (proj1 (call_known w c w1 K E1)) E). Qed.
  Lemma shown_new cs w : calls keq start cs = Ok w -> shown w (length (cells (own w))) = None.
  Proof.
    intros E. assert (K: known w) by (apply (calls_known cs start w); [constructor|exact E]). unfold shown. destruct (find _ (shows w)) as [(a, p)|] eqn:F; [|reflexivity].
    apply find_some in F. destruct F as (I & Q). cbn [fst] in Q. apply Nat.eqb_eq in Q. unfold known in K. rewrite Forall_forall in K. specialize (K _ I). cbn [fst] in K. unfold size in K. lia.
  Qed.
End Keys.
