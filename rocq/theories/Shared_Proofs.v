(** Proofs about shared objects and object locks. *)
Require Import Coq.Lists.List Coq.Arith.Arith Coq.Bool.Bool Coq.micromega.Lia.
Require Import Verif.Base Verif.Shared_Model Verif.Shared_Spec.
Import ListNotations.

Lemma nth_upd_cases {A} (l : list A) n a m x : nth_error (upd l n a) m = Some x -> (m = n /\ x = a) \/ (m <> n /\ nth_error l m = Some x).
Proof.
  intros H. destruct (Nat.eq_dec m n) as [->|N].
  - destruct (lt_dec n (length l)) as [L|L].
    + rewrite nth_error_upd_eq in H by exact L. inversion H. auto.
    + assert (n < length (upd l n a)) by (apply nth_error_Some; congruence). rewrite upd_length in *. lia.
  - rewrite nth_error_upd_neq in H by congruence. auto.
Qed.
Lemma nth_lt {A} (l : list A) n x : nth_error l n = Some x -> n < length l.
Proof. intros H. apply nth_error_Some. congruence. Qed.
Lemma nth_app_last {A} (l : list A) a n x : nth_error (l ++ [a]) n = Some x -> nth_error l n = Some x \/ (n = length l /\ x = a).
Proof.
  intros H. destruct (lt_dec n (length l)) as [L|L].
  - rewrite nth_error_app1 in H by exact L. auto.
  - rewrite nth_error_app2 in H by lia. destruct (n - length l) as [|k] eqn:Q; cbn in H; [|destruct k; discriminate]. inversion H. right. split; auto. lia.
Qed.

(** ** Shared objects *)
Definition critical (p : pc) : bool := match p with Recheck | Creating _ | Store _ | Unlock => true | _ => false end.
Definition good (s : st) (p : pc) : Prop :=
  match p with
  | Creating x => x = 0 /\ objects s = [false] /\ shared s = None
  | Store x => x = 0 /\ objects s = [true] /\ shared s = None
  | Recheck => (shared s = None /\ objects s = []) \/ (shared s = Some 0 /\ objects s = [true])
  | Unlock | Read => shared s = Some 0 /\ objects s = [true]
  | Done r => r = Some 0 /\ shared s = Some 0 /\ objects s = [true]
  | _ => True
  end.
Record inv (s : st) : Prop := {
  i_good : forall t p, nth_error (calls s) t = Some p -> good s p;
  i_one : forall t t' p p', nth_error (calls s) t = Some p -> nth_error (calls s) t' = Some p' -> critical p = true -> critical p' = true -> t = t';
  i_lock : forall t p, nth_error (calls s) t = Some p -> critical p = true -> locked s = true;
  i_held : locked s = true -> exists t p, nth_error (calls s) t = Some p /\ critical p = true;
  i_free : locked s = false -> (shared s = None /\ objects s = []) \/ (shared s = Some 0 /\ objects s = [true]);
  i_shared : shared s <> None -> shared s = Some 0 /\ objects s = [true] }.

Lemma inv_init : inv init.
Proof.
  constructor; cbn; try discriminate; try congruence; auto.
  - intros [|t] p; discriminate.
  - intros [|t] t' p p'; discriminate.
  - intros [|t] p; discriminate.
Qed.

Lemma begin_inv s : inv s -> inv (step s Begin).
Proof.
  intros [G O L H F S]. constructor; cbn [step shared locked objects calls]; auto.
  - intros t p E. apply nth_app_last in E. destruct E as [E|[_ ->]]; [|exact I]. apply G in E. destruct p; auto.
  - intros t t' p p' E E' C C'. apply nth_app_last in E. apply nth_app_last in E'.
    destruct E as [E|[_ ->]]; [|discriminate]. destruct E' as [E'|[_ ->]]; [|discriminate]. eapply O; eauto.
  - intros t p E C. apply nth_app_last in E. destruct E as [E|[_ ->]]; [|discriminate]. eauto.
  - intros Q. destruct (H Q) as (t & p & E & C). exists t, p. split; auto. rewrite nth_error_app1; auto. eapply nth_lt; eauto.
Qed.
(** A step of call [t] from [p] to [p'] keeps the invariant if it keeps what the others need. *)
Lemma step_keeps s t p s' p' : inv s -> nth_error (calls s) t = Some p -> step_pc s p = Some (s', p') ->
  inv (mkSt (shared s') (locked s') (objects s') (upd (calls s) t p')).
Proof.
  intros V E X. pose proof V as [G O L H F S]. pose proof (G _ _ E) as Gp. pose proof (nth_lt _ _ _ E) as Lt.
  assert (N: forall c, nth_error (upd (calls s) t c) t = Some c) by (intros; now apply nth_error_upd_eq).
  assert (K: forall u q, u <> t -> nth_error (calls s) u = Some q -> forall c, nth_error (upd (calls s) t c) u = Some q)
    by (intros; rewrite nth_error_upd_neq by congruence; auto).
  destruct p; cbn [step_pc] in X.
  - (* Check *)
    assert (Y: s' = s /\ critical p' = false /\ good s p').
    { destruct (shared s) as [x|] eqn:Sh; inversion X; subst; split; auto; split; auto; try exact I. destruct S as [S1 S2]; [congruence|]. cbn. split; [congruence|]. split; congruence. }
    destruct Y as (-> & Cp & Gp'). constructor; cbn [shared locked objects calls]; auto.
    + intros u q Q. apply nth_upd_cases in Q. destruct Q as [[-> ->]|[Nu Q]].
      * destruct p'; exact Gp'.
      * apply G in Q. destruct q; exact Q.
    + intros u u' q q' Q Q' C C'. apply nth_upd_cases in Q. apply nth_upd_cases in Q'.
      destruct Q as [[-> ->]|[Nu Q]]; [congruence|]. destruct Q' as [[-> ->]|[Nu' Q']]; [congruence|]. eapply O; eauto.
    + intros u q Q C. apply nth_upd_cases in Q. destruct Q as [[-> ->]|[Nu Q]]; [congruence|eauto].
    + intros Lk. destruct (H Lk) as (u & q & Q & C). exists u, q. split; auto. apply K; auto. intros ->. rewrite E in Q. inversion Q. subst. discriminate.
  - (* TryLock *)
    destruct (locked s) eqn:Lk; inversion X; subst; clear X.
    + constructor; cbn [shared locked objects calls]; auto.
      * intros u q Q. apply nth_upd_cases in Q. destruct Q as [[-> ->]|[Nu Q]]; [exact I|]. apply G in Q. destruct q; exact Q.
      * intros u u' q q' Q Q' C C'. apply nth_upd_cases in Q. apply nth_upd_cases in Q'.
        destruct Q as [[-> ->]|[Nu Q]]; [discriminate|]. destruct Q' as [[-> ->]|[Nu' Q']]; [discriminate|]. eapply O; eauto.
      * intros Z. destruct (H eq_refl) as (u & q & Q & C). exists u, q. split; auto. apply K; auto. intros ->. rewrite E in Q. inversion Q. subst. discriminate.
      * congruence.
    + specialize (F eq_refl). assert (Nc: forall u q, nth_error (calls s) u = Some q -> critical q = false).
      { intros u q Q. destruct (critical q) eqn:C; auto. pose proof (L _ _ Q C). congruence. }
      constructor; cbn [shared locked objects calls]; auto; try discriminate.
      * intros u q Q. apply nth_upd_cases in Q. destruct Q as [[-> ->]|[Nu Q]]; [exact F|]. apply G in Q. destruct q; exact Q.
      * intros u u' q q' Q Q' C C'. apply nth_upd_cases in Q. apply nth_upd_cases in Q'.
        destruct Q as [[-> ->]|[Nu Q]]; destruct Q' as [[-> ->]|[Nu' Q']]; auto; try (apply Nc in Q; congruence); apply Nc in Q'; congruence.
      * intros _. exists t, Recheck. auto.
  - (* Recheck *)
    assert (Lk: locked s = true) by (eapply L; eauto). assert (Nc: forall u q, u <> t -> nth_error (calls s) u = Some q -> critical q = false).
    { intros u q Nu Q. destruct (critical q) eqn:C; auto. elim Nu. eapply (O u t); eauto. }
    destruct Gp as [[Sh Ob]|[Sh Ob]]; rewrite Sh in X; inversion X; subst; clear X.
    + rewrite Ob. cbn [length app]. constructor; cbn [shared locked objects calls].
      * intros u q Q. apply nth_upd_cases in Q. destruct Q as [[-> ->]|[Nu Q]]; [cbn; auto|].
        pose proof (Nc _ _ Nu Q). apply G in Q. rewrite Sh, Ob in *. destruct q; cbn in *; try discriminate; auto; exfalso; decompose [and] Q; congruence.
      * intros u u' q q' Q Q' C C'. apply nth_upd_cases in Q. apply nth_upd_cases in Q'.
        destruct Q as [[-> ->]|[Nu Q]]; destruct Q' as [[-> ->]|[Nu' Q']]; auto; try (apply Nc in Q; [congruence|auto]); apply Nc in Q'; auto; congruence.
      * auto.
      * intros _. exists t. eexists. split; [apply N|reflexivity].
      * congruence.
      * congruence.
    + constructor; cbn [shared locked objects calls]; auto.
      * intros u q Q. apply nth_upd_cases in Q. destruct Q as [[-> ->]|[Nu Q]]; [cbn; auto|]. apply G in Q. destruct q; exact Q.
      * intros u u' q q' Q Q' C C'. apply nth_upd_cases in Q. apply nth_upd_cases in Q'.
        destruct Q as [[-> ->]|[Nu Q]]; destruct Q' as [[-> ->]|[Nu' Q']]; auto; try (apply Nc in Q; [congruence|auto]); apply Nc in Q'; auto; congruence.
      * intros _. exists t. eexists. split; [apply N|reflexivity].
  - (* Creating *)
    assert (Lk: locked s = true) by (eapply L; eauto). assert (Nc: forall u q, u <> t -> nth_error (calls s) u = Some q -> critical q = false).
    { intros u q Nu Q. destruct (critical q) eqn:C; auto. elim Nu. eapply (O u t); eauto. }
    destruct Gp as (-> & Ob & Sh). inversion X; subst; clear X. rewrite Ob. cbn [upd]. constructor; cbn [shared locked objects calls].
    + intros u q Q. apply nth_upd_cases in Q. destruct Q as [[-> ->]|[Nu Q]]; [cbn; auto|].
      pose proof (Nc _ _ Nu Q). apply G in Q. rewrite Sh, Ob in *. destruct q; cbn in *; try discriminate; auto; exfalso; decompose [and] Q; congruence.
    + intros u u' q q' Q Q' C C'. apply nth_upd_cases in Q. apply nth_upd_cases in Q'.
      destruct Q as [[-> ->]|[Nu Q]]; destruct Q' as [[-> ->]|[Nu' Q']]; auto; try (apply Nc in Q; [congruence|auto]); apply Nc in Q'; auto; congruence.
    + auto.
    + intros _. exists t. eexists. split; [apply N|reflexivity].
    + congruence.
    + congruence.
  - (* Store *)
    assert (Lk: locked s = true) by (eapply L; eauto). assert (Nc: forall u q, u <> t -> nth_error (calls s) u = Some q -> critical q = false).
    { intros u q Nu Q. destruct (critical q) eqn:C; auto. elim Nu. eapply (O u t); eauto. }
    destruct Gp as (-> & Ob & Sh). inversion X; subst; clear X. rewrite Ob. constructor; cbn [shared locked objects calls].
    + intros u q Q. apply nth_upd_cases in Q. destruct Q as [[-> ->]|[Nu Q]]; [cbn; auto|].
      pose proof (Nc _ _ Nu Q). apply G in Q. rewrite Sh, Ob in *. destruct q; cbn in *; try discriminate; auto; exfalso; decompose [and] Q; congruence.
    + intros u u' q q' Q Q' C C'. apply nth_upd_cases in Q. apply nth_upd_cases in Q'.
      destruct Q as [[-> ->]|[Nu Q]]; destruct Q' as [[-> ->]|[Nu' Q']]; auto; try (apply Nc in Q; [congruence|auto]); apply Nc in Q'; auto; congruence.
    + auto.
    + intros _. exists t. eexists. split; [apply N|reflexivity].
    + congruence.
    + auto.
  - (* Unlock *)
    assert (Lk: locked s = true) by (eapply L; eauto). assert (Nc: forall u q, u <> t -> nth_error (calls s) u = Some q -> critical q = false).
    { intros u q Nu Q. destruct (critical q) eqn:C; auto. elim Nu. eapply (O u t); eauto. }
    destruct Gp as (Sh & Ob). inversion X; subst; clear X. constructor; cbn [shared locked objects calls]; auto; try discriminate.
    + intros u q Q. apply nth_upd_cases in Q. destruct Q as [[-> ->]|[Nu Q]]; [cbn; auto|]. apply G in Q. destruct q; exact Q.
    + intros u u' q q' Q Q' C C'. apply nth_upd_cases in Q. apply nth_upd_cases in Q'.
      destruct Q as [[-> ->]|[Nu Q]]; destruct Q' as [[-> ->]|[Nu' Q']]; auto; try (apply Nc in Q; [congruence|auto]); apply Nc in Q'; auto; congruence.
    + intros u q Q C. apply nth_upd_cases in Q. destruct Q as [[-> ->]|[Nu Q]]; [discriminate|]. apply Nc in Q; auto. congruence.
  - (* Read *)
    destruct Gp as (Sh & Ob). inversion X; subst; clear X. constructor; cbn [shared locked objects calls]; auto.
    + intros u q Q. apply nth_upd_cases in Q. destruct Q as [[-> ->]|[Nu Q]]; [cbn; auto|]. apply G in Q. destruct q; exact Q.
    + intros u u' q q' Q Q' C C'. apply nth_upd_cases in Q. apply nth_upd_cases in Q'.
      destruct Q as [[-> ->]|[Nu Q]]; [discriminate|]. destruct Q' as [[-> ->]|[Nu' Q']]; [discriminate|]. eapply O; eauto.
    + intros u q Q C. apply nth_upd_cases in Q. destruct Q as [[-> ->]|[Nu Q]]; [discriminate|eauto].
    + intros Lk. destruct (H Lk) as (u & q & Q & C). exists u, q. split; auto. apply K; auto. intros ->. rewrite E in Q. inversion Q. subst. discriminate.
  - discriminate.
Qed.
Lemma step_inv s l : inv s -> inv (step s l).
Proof.
  intros V. destruct l as [|t]; [now apply begin_inv|]. cbn [step]. destruct (nth_error (calls s) t) as [p|] eqn:E; auto.
  destruct (step_pc s p) as [[s' p']|] eqn:X; auto. eapply step_keeps; eauto.
Qed.
Lemma run_inv ls : forall s, inv s -> inv (run s ls).
Proof. induction ls as [|l ls IH]; intros s V; auto. apply IH, step_inv, V. Qed.
Lemma created_once ls : let s := run init ls in
  length (objects s) <= 1 /\ forall t r, returned s t r -> r = Some 0 /\ nth_error (objects s) 0 = Some true.
Proof.
  intros s. assert (V: inv s) by apply run_inv, inv_init. destruct V as [G O L H F S]. split.
  - destruct (locked s) eqn:Lk.
    + destruct (H eq_refl) as (t & p & E & C). apply G in E. destruct p; cbn in *; try discriminate;
        repeat match goal with X : _ /\ _ |- _ => destruct X | X : _ \/ _ |- _ => destruct X | X : objects s = _ |- _ => rewrite X; cbn; lia end.
    + destruct (F eq_refl) as [[_ ->]|[_ ->]]; cbn; lia.
  - intros t r R. apply G in R. destruct R as (-> & _ & ->). auto.
Qed.

(** Every call returns: the remaining work decreases. *)
Definition work (p : pc) : nat := match p with Check => 7 | TryLock => 6 | Recheck => 5 | Creating _ => 4 | Store _ => 3 | Unlock => 2 | Read => 1 | Done _ => 0 end.
Definition total (s : st) : nat := list_sum (map work (calls s)).
Lemma sum_upd l : forall t p p', nth_error l t = Some p -> list_sum (map work (upd l t p')) + work p = list_sum (map work l) + work p'.
Proof.
  induction l as [|a l IH]; intros [|t] p p' E; cbn in *; try discriminate.
  - inversion E. subst. lia.
  - specialize (IH _ _ p' E). unfold list_sum in *. lia.
Qed.
Lemma step_less s t p : nth_error (calls s) t = Some p -> (forall r, p <> Done r) -> (p = TryLock -> locked s = false) -> total (step s (Step t)) < total s.
Proof.
  intros E D W. cbn [step]. rewrite E.
  assert (X: exists s' p', step_pc s p = Some (s', p') /\ work p' < work p).
  { destruct p; cbn [step_pc].
    - destruct (shared s); do 2 eexists; split; try reflexivity; cbn; lia.
    - rewrite W by reflexivity. do 2 eexists; split; try reflexivity; cbn; lia.
    - destruct (shared s); do 2 eexists; split; try reflexivity; cbn; lia.
    - do 2 eexists; split; try reflexivity; cbn; lia.
    - do 2 eexists; split; try reflexivity; cbn; lia.
    - do 2 eexists; split; try reflexivity; cbn; lia.
    - do 2 eexists; split; try reflexivity; cbn; lia.
    - now elim (D r). }
  destruct X as (s' & p' & -> & Lt). unfold total. cbn [calls]. pose proof (sum_upd (calls s) t p p' E). lia.
Qed.
Lemma step_never_more s t : total (step s (Step t)) <= total s.
Proof.
  destruct (nth_error (calls s) t) as [p|] eqn:E; [|cbn [step]; rewrite E; auto].
  destruct p; try (apply Nat.lt_le_incl; eapply step_less; eauto; congruence).
  - destruct (locked s) eqn:L; [|apply Nat.lt_le_incl; eapply step_less; eauto; congruence].
    cbn [step]. rewrite E. cbn [step_pc]. rewrite L. unfold total. cbn [calls]. pose proof (sum_upd (calls s) t TryLock TryLock E). lia.
  - cbn [step]. rewrite E. cbn [step_pc]. auto.
Qed.
Lemma not_all l : (forall t p, nth_error l t = Some p -> exists r, p = Done r) \/ exists t p, nth_error l t = Some p /\ forall r, p <> Done r.
Proof.
  induction l as [|a l IH]; [left; intros [|?]; discriminate|].
  destruct a; try (right; exists 0; eexists; split; [reflexivity|congruence]).
  destruct IH as [A|(t & p & E & D)]; [left; intros [|t] p E; cbn in E; [inversion E; eauto|eauto]|right; exists (S t), p; auto].
Qed.
Lemma can_step s : inv s -> ~ all_returned s -> exists t, total (step s (Step t)) < total s.
Proof.
  intros V NA. destruct (not_all (calls s)) as [A|(t & p & E & D)]; [contradiction|].
  destruct (locked s) eqn:Lk.
  - destruct (i_held s V Lk) as (u & q & Q & C). exists u. eapply step_less; eauto; destruct q; try discriminate.
  - exists t. eapply step_less; eauto.
Qed.
Lemma can_finish n : forall s, inv s -> total s <= n -> exists ts, all_returned (run s (map Step ts)).
Proof.
  induction n as [|n IH]; intros s V L.
  - destruct (not_all (calls s)) as [A|X]; [exists []; exact A|].
    destruct (can_step s V) as (t & Lt); [|lia]. intros A. destruct X as (t & p & E & D). apply A in E. destruct E as (r & ->). now elim (D r).
  - destruct (not_all (calls s)) as [A|X]; [exists []; exact A|].
    destruct (can_step s V) as (t & Lt). { intros A. destruct X as (t & p & E & D). apply A in E. destruct E as (r & ->). now elim (D r). }
    destruct (IH (step s (Step t)) (step_inv _ _ V)) as (ts & A); [lia|]. exists (t :: ts). exact A.
Qed.
Lemma calls_return ls : exists ts, all_returned (run (run init ls) (map Step ts)).
Proof. eapply can_finish; [apply run_inv, inv_init|reflexivity]. Qed.
Lemma calls_progress ls : let s := run init ls in ~ all_returned s -> (exists t, total (step s (Step t)) < total s) /\ forall t, total (step s (Step t)) <= total s.
Proof. intros s N. split; [|intros; apply step_never_more]. apply can_step; auto. apply run_inv, inv_init. Qed.

(** ** Object locks *)
Definition cur (s : lst) : option nat := match entry s with Some m => match nth_error (metas s) m with Some x => x | None => None end | None => None end.
Definition within (p : lpc) : bool := match p with Inside | UFind | UInsert _ | URead _ | URelease _ => true | _ => false end.
Definition lgood (s : lst) (p : lpc) : Prop :=
  match p with
  | Insert m => m < length (metas s)
  | CheckMutex m | NewMutex m => entry s = Some m
  | Swap m u => entry s = Some m /\ u < length (owners s)
  | ReadMutex m | URead m => entry s = Some m /\ cur s <> None
  | Wait u | URelease u => cur s = Some u
  | UInsert _ => False
  | _ => True
  end.
Record linv (s : lst) : Prop := {
  l_entry : forall m, entry s = Some m -> m < length (metas s);
  l_none : entry s = None -> forall m x, nth_error (metas s) m = Some x -> x = None;
  l_good : forall t p, nth_error (threads s) t = Some p -> lgood s p;
  l_in : forall t p, nth_error (threads s) t = Some p -> within p = true -> exists u, cur s = Some u /\ nth_error (owners s) u = Some (Some t);
  l_cur : forall u, cur s = Some u -> exists o, nth_error (owners s) u = Some o;
  l_own : forall u t, nth_error (owners s) u = Some (Some t) -> cur s = Some u /\ exists p, nth_error (threads s) t = Some p /\ within p = true }.
Lemma linv_init n : linv (linit n).
Proof.
  assert (R: forall t p, nth_error (repeat Outside n) t = Some p -> p = Outside) by (intros t p H; apply nth_error_In, repeat_spec in H; auto).
  constructor; cbn; try discriminate.
  - intros _ [|m] x; discriminate.
  - intros t p H. now rewrite (R _ _ H).
  - intros t p H. now rewrite (R _ _ H).
  - intros [|u] t; discriminate.
Qed.

Lemma quiet s t p p' : linv s -> nth_error (threads s) t = Some p -> within p' = within p -> lgood s p' -> linv (mkL (metas s) (entry s) (owners s) (upd (threads s) t p')).
Proof.
  intros [E N G I C O] T W Gp. pose proof (nth_lt _ _ _ T) as Lt. constructor; cbn [metas entry owners threads]; auto.
  - intros u q Q. apply nth_upd_cases in Q. destruct Q as [[-> ->]|[Nu Q]]; [destruct p'; exact Gp|]. apply G in Q. destruct q; exact Q.
  - intros u q Q Wq. apply nth_upd_cases in Q. destruct Q as [[-> ->]|[Nu Q]]; [|exact (I _ _ Q Wq)]. apply (I _ _ T). congruence.
  - intros u v Ov. destruct (O _ _ Ov) as (Cu & q & Q & Wq). split; [exact Cu|].
    destruct (Nat.eq_dec v t) as [->|Nv].
    + exists p'. rewrite nth_error_upd_eq by exact Lt. split; auto. congruence.
    + exists q. rewrite nth_error_upd_neq by congruence. auto.
Qed.
Lemma cur_app s : (forall m, entry s = Some m -> m < length (metas s)) -> cur (mkL (metas s ++ [None]) (entry s) (owners s) (threads s)) = cur s.
Proof. intros E. unfold cur. cbn. destruct (entry s) as [m|]; auto. rewrite nth_error_app1; auto. Qed.
Lemma env_meta s : linv s -> linv (mkL (metas s ++ [None]) (entry s) (owners s) (threads s)).
Proof.
  intros V. pose proof V as [E N G I C O]. pose proof (cur_app s E) as Q. constructor.
  - intros m H. cbn in *. rewrite app_length. apply E in H. lia.
  - intros H m x X. cbn in *. apply nth_app_last in X. destruct X as [X|[_ ->]]; auto. eapply N; eauto.
  - intros t p T. apply G in T. destruct p; cbn [lgood] in *; rewrite ?Q; cbn [metas entry owners]; auto. rewrite app_length; lia.
  - rewrite Q. exact I.
  - rewrite Q. exact C.
  - rewrite Q. exact O.
Qed.
Lemma env_entry s m : linv s -> entry s = None -> m < length (metas s) -> linv (mkL (metas s) (Some m) (owners s) (threads s)).
Proof.
  intros V En Lt. pose proof V as [E N G I C O].
  assert (Q: cur s = None) by (unfold cur; now rewrite En).
  assert (Q': cur (mkL (metas s) (Some m) (owners s) (threads s)) = None).
  { unfold cur. cbn. destruct (nth_error (metas s) m) as [x|] eqn:X; auto. eapply N; eauto. }
  constructor.
  - cbn. intros m' H. inversion H. now subst.
  - discriminate.
  - intros t p T. pose proof (I _ _ T) as W. apply G in T. rewrite En, Q in *. destruct p; cbn [lgood] in *; rewrite ?En, ?Q, ?Q' in *; cbn [metas entry owners]; try tauto; try discriminate; intuition discriminate.
  - intros t p T W. destruct (I _ _ T W) as (u & X & _). congruence.
  - rewrite Q'. discriminate.
  - intros u t X. destruct (O _ _ X). congruence.
Qed.
Lemma env_mutex s : linv s -> linv (mkL (metas s) (entry s) (owners s ++ [None]) (threads s)).
Proof.
  intros V. pose proof V as [E N G I C O].
  assert (Q: cur (mkL (metas s) (entry s) (owners s ++ [None]) (threads s)) = cur s) by reflexivity.
  constructor; auto.
  - intros t p T. apply G in T. destruct p; cbn [lgood] in *; rewrite ?Q; cbn [metas entry owners]; auto. rewrite app_length. split; [tauto|lia].
  - rewrite Q. intros t p T W. destruct (I _ _ T W) as (u & X & Y). exists u. split; auto. cbn. rewrite nth_error_app1; auto. eapply nth_lt; eauto.
  - rewrite Q. intros u X. destruct (C _ X) as (o & Y). exists o. cbn. rewrite nth_error_app1; auto. eapply nth_lt; eauto.
  - rewrite Q. cbn. intros u t X. apply nth_app_last in X. destruct X as [X|[_ X]]; [eauto|discriminate].
Qed.
Lemma env_swap s m u : linv s -> entry s = Some m -> nth_error (metas s) m = Some None -> u < length (owners s) -> linv (mkL (upd (metas s) m (Some u)) (entry s) (owners s) (threads s)).
Proof.
  intros V En X Lt. pose proof V as [E N G I C O].
  assert (Q: cur s = None) by (unfold cur; now rewrite En, X).
  assert (Q': cur (mkL (upd (metas s) m (Some u)) (entry s) (owners s) (threads s)) = Some u).
  { unfold cur. cbn. rewrite En, nth_error_upd_eq; auto. }
  constructor.
  - cbn. intros m' H. rewrite upd_length. auto.
  - cbn. congruence.
  - intros t p T. apply G in T. destruct p; cbn [lgood] in *; rewrite ?Q, ?Q' in *; cbn [metas entry owners]; rewrite ?upd_length; try tauto; try discriminate; intuition congruence.
  - intros t p T W. destruct (I _ _ T W) as (v & Y & _). congruence.
  - rewrite Q'. intros v Y. inversion Y. subst v. cbn. destruct (nth_error (owners s) u) eqn:Z; eauto. apply nth_error_None in Z. lia.
  - intros v t Y. destruct (O _ _ Y). congruence.
Qed.
Lemma acquire s t u p : linv s -> nth_error (threads s) t = Some (Wait p) -> p = u -> nth_error (owners s) u = Some None ->
  linv (mkL (metas s) (entry s) (upd (owners s) u (Some t)) (upd (threads s) t Inside)).
Proof.
  intros V T -> X. pose proof V as [E N G I C O]. pose proof (G _ _ T) as Cu. cbn in Cu. pose proof (nth_lt _ _ _ T) as Lt. pose proof (nth_lt _ _ _ X) as Lu.
  assert (Q: forall a b, cur (mkL (metas s) (entry s) a b) = cur s) by reflexivity.
  assert (Nw: forall v q, nth_error (threads s) v = Some q -> within q = true -> False).
  { intros v q Y W. destruct (I _ _ Y W) as (w & Z1 & Z2). congruence. }
  constructor; auto.
  - intros v q Y. cbn [threads] in Y. apply nth_upd_cases in Y. destruct Y as [[-> ->]|[Nv Y]]; [exact Logic.I|].
    apply G in Y. destruct q; cbn [lgood] in *; rewrite ?Q; cbn [metas entry owners]; auto. now rewrite upd_length.
  - intros v q Y W. cbn [threads] in Y. apply nth_upd_cases in Y. destruct Y as [[-> ->]|[Nv Y]]; [|now elim (Nw _ _ Y W)].
    exists u. rewrite Q. split; auto. cbn. now apply nth_error_upd_eq.
  - rewrite Q. intros v Y. cbn. assert (v = u) by congruence. subst. rewrite nth_error_upd_eq; eauto.
  - rewrite Q. cbn. intros v w Y. apply nth_upd_cases in Y. destruct Y as [[-> Y]|[Nv Y]].
    + inversion Y. subst. split; auto. exists Inside. rewrite nth_error_upd_eq; auto.
    + destruct (O _ _ Y) as (Z & _). congruence.
Qed.
Lemma let_go s t u : linv s -> nth_error (threads s) t = Some (URelease u) ->
  nth_error (owners s) u = Some (Some t) /\ linv (mkL (metas s) (entry s) (upd (owners s) u None) (upd (threads s) t Outside)).
Proof.
  intros V T. pose proof V as [E N G I C O]. pose proof (G _ _ T) as Cu. cbn in Cu. pose proof (nth_lt _ _ _ T) as Lt.
  destruct (I _ _ T eq_refl) as (u' & Cu' & X). assert (u' = u) by congruence. subst u'. pose proof (nth_lt _ _ _ X) as Lu. split; [exact X|].
  assert (Q: forall a b, cur (mkL (metas s) (entry s) a b) = cur s) by reflexivity.
  assert (Nw: forall v q, v <> t -> nth_error (threads s) v = Some q -> within q = true -> False).
  { intros v q Nv Y W. destruct (I _ _ Y W) as (w & Z1 & Z2). congruence. }
  constructor; auto.
  - intros v q Y. cbn [threads] in Y. apply nth_upd_cases in Y. destruct Y as [[-> ->]|[Nv Y]]; [exact Logic.I|].
    apply G in Y. destruct q; cbn [lgood] in *; rewrite ?Q; cbn [metas entry owners]; auto. now rewrite upd_length.
  - intros v q Y W. cbn [threads] in Y. apply nth_upd_cases in Y. destruct Y as [[-> ->]|[Nv Y]]; [discriminate|now elim (Nw _ _ Nv Y W)].
  - rewrite Q. intros v Y. cbn. assert (v = u) by congruence. subst. rewrite nth_error_upd_eq; eauto.
  - rewrite Q. cbn. intros v w Y. apply nth_upd_cases in Y. destruct Y as [[-> Y]|[Nv Y]]; [discriminate|].
    destruct (O _ _ Y) as (Z & _). congruence.
Qed.
Lemma cur_entry s m : entry s = Some m -> linv s -> exists x, nth_error (metas s) m = Some x /\ cur s = x.
Proof.
  intros E V. pose proof (l_entry s V m E). unfold cur. rewrite E. destruct (nth_error (metas s) m) eqn:X; eauto. apply nth_error_None in X. lia.
Qed.
(** What remains to be done by a thread that is not waiting for another one. *)
Definition lwork (p : lpc) : nat :=
  match p with Find => 8 | Insert _ => 7 | CheckMutex _ => 6 | NewMutex _ => 5 | Swap _ _ => 4 | ReadMutex _ => 3 | Wait _ => 2 | UFind => 4 | UInsert _ => 3 | URead _ => 2 | URelease _ => 1 | Inside | Outside => 0 end.
Lemma lstep_ok s t p : linv s -> nth_error (threads s) t = Some p ->
  exists s' p', lstep_pc s t p = Ok (s', p') /\ linv (mkL (metas s') (entry s') (owners s') (upd (threads s) t p')) /\
    (lwork p' < lwork p \/ p' = p /\ (p = Inside \/ p = Outside \/ exists u t', p = Wait u /\ nth_error (owners s) u = Some (Some t'))).
Proof.
  intros V T. pose proof (l_good s V _ _ T) as G. destruct p; cbn [lstep_pc lgood] in *.
  - exists s, Outside. split; auto. split; [|auto]. now apply quiet with Outside.
  - destruct (entry s) as [m|] eqn:E.
    + do 2 eexists. split; [reflexivity|]. split; [|cbn; lia]. now apply quiet with Find.
    + do 2 eexists. split; [reflexivity|]. split; [|cbn; lia]. cbn [metas entry owners].
      assert (V1: linv (mkL (metas s ++ [None]) None (owners s) (threads s))) by (rewrite <- E at 2; now apply env_meta).
      apply (quiet (mkL (metas s ++ [None]) None (owners s) (threads s)) t Find); auto. cbn. rewrite app_length. cbn. lia.
  - destruct (entry s) as [m'|] eqn:E.
    + do 2 eexists. split; [reflexivity|]. split; [|cbn; lia]. now apply quiet with (Insert m).
    + do 2 eexists. split; [reflexivity|]. split; [|cbn; lia]. cbn [metas entry owners].
      apply (quiet (mkL (metas s) (Some m) (owners s) (threads s)) t (Insert m)); auto; [now apply env_entry|reflexivity].
  - destruct (cur_entry s m G V) as (x & X & Cx). rewrite X. destruct x as [u|].
    + do 2 eexists. split; [reflexivity|]. split; [|cbn; lia]. apply quiet with (CheckMutex m); auto. cbn. split; auto. congruence.
    + do 2 eexists. split; [reflexivity|]. split; [|cbn; lia]. apply quiet with (CheckMutex m); auto.
  - do 2 eexists. split; [reflexivity|]. split; [|cbn; lia]. cbn [metas entry owners].
    apply (quiet (mkL (metas s) (entry s) (owners s ++ [None]) (threads s)) t (NewMutex m)); auto; [now apply env_mutex|]. cbn. rewrite app_length. cbn. split; auto. lia.
  - destruct G as [G L]. destruct (cur_entry s m G V) as (x & X & Cx). rewrite X. destruct x as [v|].
    + do 2 eexists. split; [reflexivity|]. split; [|cbn; lia]. apply quiet with (Swap m u); auto. cbn. split; auto. congruence.
    + do 2 eexists. split; [reflexivity|]. split; [|cbn; lia]. cbn [metas entry owners].
      apply (quiet (mkL (upd (metas s) m (Some u)) (entry s) (owners s) (threads s)) t (Swap m u)); auto; [now apply env_swap|].
      cbn. split; auto. unfold cur. cbn. rewrite G, nth_error_upd_eq; [discriminate|]. eapply nth_lt; eauto.
  - destruct G as [G L]. destruct (cur_entry s m G V) as (x & X & Cx). rewrite X. destruct x as [v|]; [|congruence].
    do 2 eexists. split; [reflexivity|]. split; [|cbn; lia]. apply quiet with (ReadMutex m); auto.
  - destruct (l_cur s V _ G) as (o & X). rewrite X. destruct o as [t'|].
    + do 2 eexists. split; [reflexivity|]. split; [now apply quiet with (Wait u)|]. right. split; auto. right. right. eauto.
    + do 2 eexists. split; [reflexivity|]. split; [|cbn; lia]. cbn [metas entry owners]. eapply acquire; eauto.
  - exists s, Inside. split; auto. split; [|auto]. now apply quiet with Inside.
  - destruct (l_in s V _ _ T eq_refl) as (u & Cu & X). unfold cur in Cu. destruct (entry s) as [m|] eqn:E; [|discriminate].
    do 2 eexists. split; [reflexivity|]. split; [|cbn; lia]. apply quiet with UFind; auto. cbn. split; auto. unfold cur. rewrite E, Cu. discriminate.
  - contradiction.
  - destruct G as [G L]. destruct (cur_entry s m G V) as (x & X & Cx). rewrite X. destruct x as [v|]; [|congruence].
    do 2 eexists. split; [reflexivity|]. split; [|cbn; lia]. apply quiet with (URead m); auto.
  - destruct (let_go s t u V T) as (X & V'). rewrite X, Nat.eqb_refl. do 2 eexists. split; [reflexivity|]. split; [|cbn; lia]. exact V'.
Qed.
Lemma lstep_inv s l : linv s -> exists s', lstep s l = Ok s' /\ linv s'.
Proof.
  intros V. destruct l as [t|t|t]; cbn [lstep]; destruct (nth_error (threads s) t) as [p|] eqn:T; try (eexists; split; [reflexivity|exact V]).
  - destruct p; eexists; (split; [reflexivity|]); try exact V. apply quiet with Outside; auto. exact I.
  - destruct p; eexists; (split; [reflexivity|]); try exact V. apply quiet with Inside; auto. exact I.
  - destruct (lstep_ok s t p V T) as (s' & p' & X & V' & _). rewrite X. cbn [obind fst snd]. eauto.
Qed.
Lemma lrun_inv ls : forall s, linv s -> exists s', lrun s ls = Ok s' /\ linv s'.
Proof.
  induction ls as [|l ls IH]; intros s V; cbn [lrun]; [eauto|]. destruct (lstep_inv s l V) as (s' & X & V'). rewrite X. cbn [obind]. auto.
Qed.
Lemma exclusion n ls : exists s, lrun (linit n) ls = Ok s /\ forall t t', holds s t -> holds s t' -> t = t'.
Proof.
  destruct (lrun_inv ls (linit n) (linv_init n)) as (s & X & V). exists s. split; auto. intros t t' H H'.
  destruct (l_in s V _ _ H eq_refl) as (u & C & O). destruct (l_in s V _ _ H' eq_refl) as (u' & C' & O'). congruence.
Qed.
Definition ltotal (s : lst) : nat := list_sum (map lwork (threads s)).
Lemma lsum_upd l : forall t p p', nth_error l t = Some p -> list_sum (map lwork (upd l t p')) + lwork p = list_sum (map lwork l) + lwork p'.
Proof.
  induction l as [|a l IH]; intros [|t] p p' E; cbn in *; try discriminate.
  - inversion E. subst. lia.
  - specialize (IH _ _ p' E). unfold list_sum in *. lia.
Qed.
Lemma lstep_total s t : linv s -> exists s', lstep s (LStep t) = Ok s' /\ linv s' /\ ltotal s' <= ltotal s.
Proof.
  intros V. cbn [lstep]. destruct (nth_error (threads s) t) as [p|] eqn:T; [|eauto].
  destruct (lstep_ok s t p V T) as (s' & p' & X & V' & W). rewrite X. cbn [obind fst snd]. eexists. split; [reflexivity|]. split; [exact V'|].
  unfold ltotal. cbn [threads]. pose proof (lsum_upd _ _ _ p' T). destruct W as [W|[-> _]]; lia.
Qed.
(** Whoever waits, waits for a thread that has the lock, or some thread can go on. *)
Lemma lprogress n ls s : lrun (linit n) ls = Ok s -> (exists t, waiting s t) ->
  (exists t', holds s t') \/ exists t' s', lstep s (LStep t') = Ok s' /\ ltotal s' < ltotal s.
Proof.
  intros R (t & p & T & N1 & N2). destruct (lrun_inv ls (linit n) (linv_init n)) as (s0 & X & V). rewrite R in X. inversion X. subst s0. clear X.
  assert (K: forall t p s' p', nth_error (threads s) t = Some p -> lstep_pc s t p = Ok (s', p') -> lwork p' < lwork p -> exists t' s', lstep s (LStep t') = Ok s' /\ ltotal s' < ltotal s).
  { intros t0 p0 s' p' T0 X W. exists t0. cbn [lstep]. rewrite T0, X. cbn [obind fst snd]. eexists. split; [reflexivity|].
    unfold ltotal. cbn [threads]. pose proof (lsum_upd _ _ _ p' T0). lia. }
  destruct (lstep_ok s t p V T) as (s' & p' & X & _ & W). destruct W as [W|[-> [->|[->|(u & t' & -> & O)]]]]; try congruence; [right; eauto|].
  destruct (l_own s V _ _ O) as (_ & q & Q & Wq). destruct (lstep_ok s t' q V Q) as (s2 & q' & X2 & _ & W2).
  destruct W2 as [W2|[-> [->|[->|(u2 & t2 & -> & O2)]]]]; try discriminate; [right; eauto|left; exists t'; exact Q].
Qed.
Lemma lprogress_bound n ls s t : lrun (linit n) ls = Ok s -> exists s', lstep s (LStep t) = Ok s' /\ ltotal s' <= ltotal s.
Proof.
  intros R. destruct (lrun_inv ls (linit n) (linv_init n)) as (s0 & X & V). rewrite R in X. inversion X. subst s0.
  destruct (lstep_total s t V) as (s' & Y & _ & Z). eauto.
Qed.

(** ** Lookups and installations *)
Definition race : list ilabel :=
  [BeginFind; StepFind 0; StepFind 0; StepFind 0; BeginInstall 1; StepInstall 0; StepInstall 0; StepFind 0; BeginFind; StepFind 1].
Lemma stale : exists ls1 ls2, 
  let s1 := irun (iinit (Some 0)) ls1 in let s2 := irun s1 ls2 in
  nth_error (installs s1) 0 = Some (IDone 1) /\ nth_error (finds s1) 1 = None /\
  nth_error (finds s2) 1 = Some (FDone (Some 0)) /\ In 0 (freed s1) /\ line s2 = Some 0 /\ row s2 = Some 1 /\ no_find s2 /\ no_install s2.
Proof.
  exists (firstn 8 race), (skipn 8 race). cbn. repeat (split; [auto|]).
  - intros [|[|[|t]]] p E; cbn in E; inversion E; eauto.
  - intros [|[|t]] p E; cbn in E; inversion E; eauto.
Qed.
Record iinv (s : ist) : Prop := {
  ii_line : line s = None \/ line s = row s;
  ii_find : forall t p, nth_error (finds s) t = Some p -> match p with F2 => row s <> None | F3 i => row s = Some i | _ => True end }.
Lemma sep_find_inv s t : iinv s -> iinv (istep s (StepFind t)) /\ row (istep s (StepFind t)) = row s /\
  forall r, nth_error (finds s) t <> Some (FDone r) -> nth_error (finds (istep s (StepFind t))) t = Some (FDone r) -> r = row s.
Proof.
  intros [L F]. cbn [istep]. destruct (nth_error (finds s) t) as [p|] eqn:E; [|split; [constructor; auto|split; auto; congruence]].
  pose proof (F _ _ E) as G. pose proof (nth_lt _ _ _ E) as Lt.
  destruct p; cbn [row line finds freed].
  - split; [constructor; cbn [row line finds]; auto|split; auto].
    + intros u q Q. apply nth_upd_cases in Q. destruct Q as [[-> ->]|[_ Q]]; [destruct (line s); exact I|apply (F _ _ Q)].
    + intros r _ X. rewrite nth_error_upd_eq in X by exact Lt. destruct (line s) as [i|] eqn:Li; inversion X. subst. destruct L; congruence.
  - split; [constructor; cbn [row line finds]; auto|split; auto].
    + intros u q Q. apply nth_upd_cases in Q. destruct Q as [[-> ->]|[_ Q]]; [destruct (row s); try exact I; discriminate|apply (F _ _ Q)].
    + intros r _ X. rewrite nth_error_upd_eq in X by exact Lt. destruct (row s) as [i|] eqn:Li; inversion X. reflexivity.
  - split; [constructor; cbn [row line finds]; auto|split; auto].
    + intros u q Q. apply nth_upd_cases in Q. destruct Q as [[-> ->]|[_ Q]]; [destruct (row s); try exact I; reflexivity|apply (F _ _ Q)].
    + intros r _ X. rewrite nth_error_upd_eq in X by exact Lt. destruct (row s) as [i|] eqn:Li; inversion X. reflexivity.
  - split; [constructor; cbn [row line finds]; auto|split; auto].
    + intros u q Q. apply nth_upd_cases in Q. destruct Q as [[-> ->]|[_ Q]]; [exact I|apply (F _ _ Q)].
    + intros r _ X. rewrite nth_error_upd_eq in X by exact Lt. inversion X. congruence.
  - split; [constructor; auto|split; auto]. intros r0 X Y. congruence.
Qed.
Lemma sep_install_inv s i : iinv s -> no_find s -> let s' := irun s [BeginInstall i; StepInstall (length (installs s)); StepInstall (length (installs s))] in
  iinv s' /\ row s' = Some i /\ finds s' = finds s /\ nth_error (installs s') (length (installs s)) = Some (IDone i).
Proof.
  intros [L F] N. set (n := length (installs s)). cbn [irun fold_left].
  assert (E1: istep s (BeginInstall i) = mkIst (row s) (line s) (freed s) (finds s) (installs s ++ [I0 i])) by reflexivity. rewrite E1.
  assert (X1: nth_error (installs s ++ [I0 i]) n = Some (I0 i)) by (unfold n; rewrite nth_error_app2, Nat.sub_diag by lia; reflexivity).
  assert (Ln: n < length (installs s ++ [I0 i])) by (rewrite app_length; cbn; unfold n; lia).
  cbn [istep installs row line freed finds]. rewrite X1. cbn [istep installs row line freed finds].
  rewrite nth_error_upd_eq by exact Ln. cbn [istep installs row line freed finds].
  split; [constructor; cbn [row line finds]; auto|split; [reflexivity|split; [reflexivity|]]].
  - intros t p Q. destruct (N _ _ Q) as (r & ->). exact I.
  - rewrite nth_error_upd_eq; auto. now rewrite upd_length.
Qed.
(** In such runs every lookup returns what is in the row at that time. *)
Lemma separate_inv s ls s' : separate s ls s' -> iinv s -> iinv s'.
Proof.
  induction 1; intros V; auto; apply IHseparate.
  - destruct V as [L F]. constructor; cbn [istep row line finds]; auto. intros t p Q. apply nth_app_last in Q. destruct Q as [Q|[_ ->]]; [apply (F _ _ Q)|exact I].
  - now apply sep_find_inv.
  - now apply sep_install_inv.
Qed.
Lemma iinv_init r : iinv (iinit r).
Proof. constructor; cbn; auto. intros [|t] p; discriminate. Qed.
Lemma separate_lookup r ls s t x : separate (iinit r) ls s ->
  nth_error (finds s) t <> Some (FDone x) -> nth_error (finds (istep s (StepFind t))) t = Some (FDone x) -> x = row s.
Proof. intros H. pose proof (separate_inv _ _ _ H (iinv_init r)) as V. apply sep_find_inv; auto. Qed.
Lemma separate_row s ls s' : separate s ls s' -> iinv s -> row s' = latest (row s) ls.
Proof.
  induction 1 as [s|s ls s' H IH|s t ls s' H IH|s i ls s' N H IH]; intros V; auto; unfold latest in *; cbn [fold_left].
  - rewrite IH; [reflexivity|]. destruct V as [L F]. constructor; cbn [istep row line finds]; auto. intros t p Q. apply nth_app_last in Q. destruct Q as [Q|[_ ->]]; [apply (F _ _ Q)|exact I].
  - destruct (sep_find_inv s t V) as (V' & R & _). rewrite IH, R; auto.
  - destruct (sep_install_inv s i V N) as (V' & R & _). rewrite IH by exact V'. now rewrite R.
Qed.
Lemma separate_latest r ls s t x : separate (iinit r) ls s ->
  nth_error (finds s) t <> Some (FDone x) -> nth_error (finds (istep s (StepFind t))) t = Some (FDone x) -> x = latest r ls.
Proof. intros H A B. rewrite (separate_lookup _ _ _ _ _ H A B). apply (separate_row _ _ _ H), iinv_init. Qed.
