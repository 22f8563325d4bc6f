Require Import Coq.Lists.List Coq.ZArith.ZArith Coq.Bool.Bool Lia.
Require Import Verif.Base Verif.Thread_Model Verif.Thread_Spec.
Import ListNotations.
Local Open Scope Z_scope.

(** ** Threads *)
Lemma cancelled_stays : forall ls t t', tstate_of t = Cancelled -> phase_of t = Begun -> trun t ls = Ok t' ->
  (tstate_of t' = Cancelled /\ phase_of t' = Begun) \/ (tstate_of t' = Finished /\ phase_of t' = Ended /\ In End ls).
Proof.
  assert (F : forall ls t t', tstate_of t = Finished -> phase_of t = Ended -> trun t ls = Ok t' -> tstate_of t' = Finished /\ phase_of t' = Ended).
  { induction ls as [|l ls IH]; cbn [trun]; intros t t' A B H; [inversion H; subst; auto|]. apply obind_ok in H as (t1 & H1 & H2).
    destruct l; cbn [tstep] in H1; rewrite ?A, ?B in H1; inversion H1; subst; eapply IH; eauto. }
  induction ls as [|l ls IH]; cbn [trun]; intros t t' A B H; [inversion H; subst; auto|]. apply obind_ok in H as (t1 & H1 & H2).
  destruct l; cbn [tstep] in H1; rewrite ?A, ?B in H1; inversion H1; subst; clear H1.
  - destruct (IH _ _ A B H2) as [X|(X & Y & Z)]; [auto|right; simpl; auto].
  - destruct (IH _ _ A B H2) as [X|(X & Y & Z)]; [auto|right; simpl; auto].
  - right. destruct (F ls (mkThread Finished Ended) t' eq_refl eq_refl H2). simpl. auto.
  - destruct (IH _ _ A B H2) as [X|(X & Y & Z)]; [auto|right; simpl; auto].
Qed.

(** ** The semaphore *)
Lemma balance_app a b : balance (a ++ b) = balance a + balance b.
Proof. induction a as [|x a IH]; simpl; [lia|]. rewrite IH. lia. Qed.
Lemma int32_id z : - 2 ^ 31 <= z < 2 ^ 31 -> int32 z = z.
Proof. intros H. unfold int32. rewrite Z.mod_small; lia. Qed.
Record sinv (s : sem) (m : Z) : Prop := mkSinv {
  n_bal : counter s = balance (slog s);
  n_pos : 0 <= counter s <= m;
  n_small : forall c, In c (clients s) -> match c with Free => True | Checking v | Asleep v => 0 <= v < 2 ^ 31 end;
  n_ret : forall l1 i v l2, slog s = l1 ++ Returned i v :: l2 -> balance l1 = v;
  n_wake : forall v, In (Asleep v) (clients s) -> counter s = v -> (0 < broadcasts s)%nat
}.
Lemma in_upd {A} (l : list A) i x y v : nth_error l i = Some x -> In v (upd l i y) -> v = y \/ In v l.
Proof. intros W H. destruct (upd_split _ l i y x W) as (a & b & E & _ & U). rewrite U in H. rewrite E. rewrite in_app_iff in *. simpl in *. intuition. Qed.
Lemma snoc_split {A} (l : list A) e l1 x l2 : l ++ [e] = l1 ++ x :: l2 -> (l2 = [] /\ l = l1 /\ e = x) \/ exists r, l2 = r ++ [e] /\ l = l1 ++ x :: r.
Proof.
  destruct l2 as [|y l2'] using rev_ind.
  - intros H. apply app_inj_tail in H as [H1 H2]. left. auto.
  - intros H. change (l1 ++ x :: l2' ++ [y]) with (l1 ++ (x :: l2') ++ [y]) in H. rewrite app_assoc in H.
    apply app_inj_tail in H as [H1 H2]. right. exists l2'. subst. auto.
Qed.
Lemma sstep_inv s l s' m : sinv s m -> small l -> m + raised [l] < 2 ^ 31 -> sstep s l = Ok s' -> sinv s' (m + raised [l]).
Proof.
  intros [A B C D E] S M H. destruct l as [v|v| |i v|i|i]; cbn [sstep raised fold_right small] in *.
  - inversion H; subst. rewrite int32_id by lia. constructor; cbn [counter clients broadcasts slog]; try lia; auto.
    + rewrite balance_app. simpl. lia.
    + intros l1 i w l2 X. apply snoc_split in X as [(_ & _ & X)|(r & -> & X)]; [discriminate|]. eapply D; eauto.
  - destruct (int32 v <=? counter s) eqn:G; [|discriminate]. rewrite int32_id in G by lia. apply Z.leb_le in G. inversion H; subst. rewrite int32_id by lia. constructor; cbn [counter clients broadcasts slog]; try lia; auto.
    + rewrite balance_app. simpl. lia.
    + intros l1 i w l2 X. apply snoc_split in X as [(_ & _ & X)|(r & -> & X)]; [discriminate|]. eapply D; eauto.
  - destruct (broadcasts s) as [|n] eqn:N; inversion H; subst; [constructor; rewrite ?N; auto; lia|]. constructor; cbn [counter clients broadcasts slog]; auto; try lia.
    + intros c Hc. apply in_map_iff in Hc as (x & <- & Hx). specialize (C x Hx). destruct x; exact C.
    + intros v Hc. apply in_map_iff in Hc as (x & X & Hx). destruct x; discriminate.
  - destruct (nth_error (clients s) i) as [[|w|w]|] eqn:W; inversion H; subst; (constructor; cbn [counter clients broadcasts slog]; auto; try lia).
    + intros c Hc. destruct (in_upd _ _ _ _ _ W Hc) as [->|X]; [cbn; try exact I; lia|exact (C _ X)].
    + intros w Hc. destruct (in_upd _ _ _ _ _ W Hc) as [X|X]; [discriminate|exact (E _ X)].
  - destruct (nth_error (clients s) i) as [[|w|w]|] eqn:W; try (inversion H; subst; constructor; auto; lia).
    pose proof (C _ (nth_error_In _ _ W)) as SW. cbn in SW. rewrite int32_id in H by lia.
    destruct (counter s =? w) eqn:G; inversion H; subst; (constructor; cbn [counter clients broadcasts slog]; auto; try lia).
    + rewrite balance_app. simpl. lia.
    + intros c Hc. destruct (in_upd _ _ _ _ _ W Hc) as [->|X]; [cbn; try exact I; lia|exact (C _ X)].
    + intros l1 j v l2 X. apply Z.eqb_eq in G. apply snoc_split in X as [(_ & <- & X)|(r & -> & X)]; [inversion X; subst; lia|]. eapply D; eauto.
    + intros v Hc. destruct (in_upd _ _ _ _ _ W Hc) as [X|X]; [discriminate|exact (E _ X)].
    + intros c Hc. destruct (in_upd _ _ _ _ _ W Hc) as [->|X]; [cbn; try exact I; lia|exact (C _ X)].
    + intros v Hc. apply Z.eqb_neq in G. destruct (in_upd _ _ _ _ _ W Hc) as [X|X]; [inversion X; congruence|exact (E _ X)].
  - destruct (nth_error (clients s) i) as [c0|] eqn:W; inversion H; subst; (constructor; cbn [counter clients broadcasts slog]; auto; try lia).
    + intros c Hc. destruct (in_upd _ _ _ _ _ W Hc) as [->|X]; [|exact (C _ X)]. specialize (C _ (nth_error_In _ _ W)). destruct c0; exact C.
    + intros v Hc. destruct (in_upd _ _ _ _ _ W Hc) as [X|X]; [destruct c0; discriminate|exact (E _ X)].
Qed.
Lemma raised_cons l ls : raised (l :: ls) = raised [l] + raised ls.
Proof. destruct l; simpl; lia. Qed.
Lemma raised_pos ls : Forall small ls -> 0 <= raised ls.
Proof. induction 1 as [|l ls S _ IH]; simpl; [lia|]. destruct l; simpl in *; lia. Qed.
Lemma srun_inv : forall ls s s' m, sinv s m -> Forall small ls -> m + raised ls < 2 ^ 31 -> srun s ls = Ok s' -> exists m', sinv s' m'.
Proof.
  induction ls as [|l ls IH]; cbn [srun]; intros s s' m I F M H; [inversion H; subst; eauto|]. inversion F as [|? ? S1 F1]; subst. apply obind_ok in H as (s1 & H1 & H2).
  rewrite raised_cons in M. pose proof (raised_pos ls ltac:(assumption)). eapply (IH s1 s'); [eapply sstep_inv; eauto; lia|assumption|lia|exact H2].
Qed.
Lemma sinit_inv n : sinv (sinit n) 0.
Proof.
  unfold sinit. constructor; cbn [counter clients broadcasts slog].
  - reflexivity.
  - lia.
  - intros c H. apply repeat_spec in H. subst. exact I.
  - intros l1 i v l2 H. destruct l1; discriminate.
  - intros v H. apply repeat_spec in H. discriminate.
Qed.
(** The program ends only if more is taken than there is. *)
Lemma sstep_total s l m : sinv s m -> small l -> (exists s', sstep s l = Ok s') \/ (sstep s l = Fatal /\ exists v, l = Dec v /\ counter s < v).
Proof.
  intros I S. destruct l as [v|v| |i v|i|i]; cbn [sstep]; eauto.
  - cbn in S. rewrite int32_id by lia. destruct (v <=? counter s) eqn:G; [eauto|]. apply Z.leb_gt in G. right. eauto.
  - destruct (broadcasts s); eauto.
  - destruct (nth_error (clients s) i) as [[| |]|]; eauto.
  - destruct (nth_error (clients s) i) as [[|w|]|]; eauto. destruct (counter s =? int32 w); eauto.
  - destruct (nth_error (clients s) i); eauto.
Qed.
Lemma srun_total : forall ls s m, sinv s m -> Forall small ls -> m + raised ls < 2 ^ 31 ->
  (exists s', srun s ls = Ok s') \/ (srun s ls = Fatal /\ exists l1 v l2 s1, ls = l1 ++ Dec v :: l2 /\ srun s l1 = Ok s1 /\ counter s1 < v).
Proof.
  induction ls as [|l ls IH]; cbn [srun]; intros s m I F M; [eauto|]. inversion F as [|? ? S F']; subst. rewrite raised_cons in M. pose proof (raised_pos ls F').
  destruct (sstep_total s l m I S) as [(s1 & E)|(E & v & -> & L)].
  - rewrite E. cbn [obind]. destruct (IH s1 (m + raised [l])) as [X|(X & l1 & v & l2 & s2 & Y1 & Y2 & Y3)]; auto; [eapply sstep_inv; eauto; lia|lia|].
    right. split; [exact X|]. exists (l :: l1), v, l2, s2. subst ls. split; [reflexivity|]. split; [|exact Y3]. cbn [srun]. rewrite E. exact Y2.
  - right. rewrite E. split; [reflexivity|]. exists [], v, ls, s. auto.
Qed.
Lemma semaphore_runs : forall n ls, Forall small ls -> raised ls < 2 ^ 31 ->
  match srun (sinit n) ls with
  | Ok s =>
    counter s = balance (slog s) /\ 0 <= counter s /\
    (forall l1 i v l2, slog s = l1 ++ Returned i v :: l2 -> balance l1 = v) /\
    (forall i v, nth_error (clients s) i = Some (Asleep v) -> counter s = v -> (0 < broadcasts s)%nat)
  | Fatal => exists l1 v l2 s1, ls = l1 ++ Dec v :: l2 /\ srun (sinit n) l1 = Ok s1 /\ counter s1 < v
  | _ => False
  end.
Proof.
  intros n ls F M. destruct (srun_total ls (sinit n) 0 (sinit_inv n) F ltac:(lia)) as [(s & E)|(E & X)].
  - rewrite E. destruct (srun_inv ls (sinit n) s 0 (sinit_inv n) F ltac:(lia) E) as (m & [A B C D W]).
    split; [exact A|]. split; [lia|]. split; [exact D|]. intros i v H. apply nth_error_In in H. exact (W v H).
  - rewrite E. exact X.
Qed.
Lemma semaphore_large : exists s, srun (sinit 1) [Dec (2 ^ 31)] = Ok s /\ counter s = - 2 ^ 31.
Proof. eexists. split; [vm_compute; reflexivity|reflexivity]. Qed.
Lemma cancel_runs t ls t1 t' : phase_of t = Begun -> tstate_of t = Running -> tstep t Cancel = Ok t1 -> trun t1 ls = Ok t' ->
  tstate_of t' = Cancelled \/ (tstate_of t' = Finished /\ In End ls).
Proof.
  intros B R C H. cbn [tstep] in C. rewrite R in C. inversion C; subst. destruct (cancelled_stays ls (mkThread Cancelled (phase_of t)) t' eq_refl B H) as [[X _]|(X & _ & Y)]; auto.
Qed.
Lemma cancel_lost : exists t t', trun tinit [Start; Cancel] = Ok t /\ tstate_of t = Cancelled /\ trun t [Begin] = Ok t' /\ tstate_of t' = Running.
Proof. eexists. eexists. split; [reflexivity|]. split; [reflexivity|]. split; reflexivity. Qed.
Lemma join_undefined : forall ls t, trun tinit (Start :: ls) = Ok t -> tstep t Join = UB.
Proof.
  assert (F : forall ls t t', tstate_of t <> Created -> trun t ls = Ok t' -> tstate_of t' <> Created).
  { induction ls as [|l ls IH]; cbn [trun]; intros t t' A H; [inversion H; subst; auto|]. apply obind_ok in H as (t1 & H1 & H2).
    apply (IH t1 t'); [|exact H2]. destruct l; cbn [tstep] in H1; destruct (tstate_of t) eqn:E; try congruence; destruct (phase_of t); inversion H1; subst; cbn; congruence. }
  intros ls t H. cbn [trun] in H. apply obind_ok in H as (t1 & H1 & H2). cbn in H1. inversion H1; subst. assert (N : tstate_of t <> Created) by (apply (F ls (mkThread Started NotBegun) t); [discriminate|exact H2]). cbn [tstep]. destruct (tstate_of t); congruence.
Qed.
