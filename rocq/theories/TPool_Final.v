(** The statements about thread pools, put together. *)
Require Import Coq.Lists.List Coq.Bool.Bool Coq.Arith.Arith Coq.Sorting.Permutation Lia.
Require Import Verif.Base Verif.TPool_Model Verif.TPool_Spec Verif.TPool_Proofs Verif.TPool_Sync Verif.TPool_Progress.
Import ListNotations.

Lemma tasks_once n ls : allowed_run (init n) ls -> exists s, run (init n) ls = Ok s /\
  NoDup (ids (log s)) /\
  (forall g, added g (log s) = started g (log s) ++ queued g (queues s) ++ removed g (log s)) /\
  (forall g, addedC g (log s) = startedC g (log s) ++ queuedC g (queues s) ++ removedC g (log s)) /\
  (forall g, g <> 0 -> Permutation (started g (log s)) (done g (log s) ++ running g (workers s))).
Proof.
  intros A. destruct (run_inv ls (init n) (init_inv n) A) as (s & E & I). exists s. split; [exact E|]. unfold Inv in I. destruct I.
  split; [apply i_ids|]. split; [exact i_task|]. split; [exact i_comp|exact i_perm].
Qed.
Lemma reach n ls s : allowed_run (init n) ls -> run (init n) ls = Ok s -> Inv s /\ sync s.
Proof.
  intros A E. destruct (run_inv ls (init n) (init_inv n) A) as (s' & E' & I). rewrite E in E'. inversion E'; subst. split; [exact I|].
  eapply run_sync; [apply init_sync|exact E].
Qed.
Lemma init_unc n : uncancelled (init n). Proof. intros w H. apply repeat_spec in H. subst. reflexivity. Qed.
Lemma unc_workers n ls s : no_cancel ls -> run (init n) ls = Ok s -> uncancelled s /\ length (workers s) = n.
Proof. intros N E. destruct (run_unc ls (init n) s (init_unc n) N E) as [U L]. split; [exact U|]. rewrite L. cbn. apply repeat_length. Qed.
Lemma all_run n ls s : 0 < n -> no_cancel ls -> allowed_run (init n) ls -> run (init n) ls = Ok s ->
  (forall k s', moves k s s' -> k <= left_to_do s) /\
  (exists k s', moves k s s' /\ settled s') /\
  (forall k s', moves k s s' -> settled s' ->
     (forall w, In w (workers s') -> place_of w = Waiting) /\
     (forall g t, g <> 0 -> In t (added g (log s')) -> In t (done g (log s')) \/ In t (removed g (log s'))) /\
     (forall g c, In c (addedC g (log s')) -> In c (startedC g (log s')) \/ In c (removedC g (log s')))).
Proof.
  intros P N A E. destruct (reach n ls s A E) as [I S]. destruct (unc_workers n ls s N E) as [U L].
  split; [intros k s' M; pose proof (moves_bound _ _ _ M); lia|]. split.
  - destruct (settle (Datatypes.S (left_to_do s)) s ltac:(lia) I S) as (k & s' & M & I' & S' & Z & O). exists k, s'. split; [exact M|].
    intros s2 (i & [H|H] & D); cbn [step] in H.
    + destruct (nth_error (workers s') i) as [w|] eqn:W; [|inversion H; congruence]. pose proof (count_zero _ _ Z w (nth_error_In _ _ W)) as AW. unfold awake in AW. unfold worker_step in H.
      destruct (place_of w); try discriminate; inversion H; congruence.
    + rewrite O in H. inversion H; congruence.
  - intros k s' M T. destruct (moves_inv _ _ _ M I S) as [I' S']. destruct (moves_unc _ _ _ M U) as [U' L'].
    destruct (settled_iff s' I' S' T) as [Z O].
    assert (NE : workers s' <> []) by (intros X; rewrite X in L'; simpl in L'; lia).
    destruct (all_done s' I' S' U' NE Z O) as [J Q]. split.
    { intros w Hw. pose proof (count_zero _ _ Z w Hw) as AW. unfold awake in AW. destruct (place_of w) eqn:PW; try discriminate; [reflexivity|].
      pose proof (s_stop _ S' w Hw PW). rewrite (U' w Hw) in H. discriminate. }
    unfold Inv in I'. destruct I'. split.
    + intros g t G H. rewrite i_task, Q in H. simpl in H. apply in_app_iff in H as [H|H]; [left|auto]. eapply Permutation_in in H; [|apply i_perm; exact G]. rewrite J, app_nil_r in H. exact H.
    + intros g c H. rewrite i_comp, Q in H. simpl in H. apply in_app_iff in H. exact H.
Qed.
Lemma busy_workers n ls s : no_cancel ls -> ~ In AddCompletion ls -> allowed_run (init n) ls -> run (init n) ls = Ok s ->
  (exists w, In w (workers s) /\ place_of w = Waiting) ->
  total (fun q => length (tasks q)) (queues s) <= owed s + length (filter eager (workers s)).
Proof.
  intros N C A E (w & Hw & P).
  assert (R : ready_for (init n)).
  { split; [intros q []|]. cbn. lia. }
  destruct (run_ready ls (init n) s R (init_unc n) N C E) as [_ X].
  assert (L : count eager (workers s) = length (filter eager (workers s))).
  { clear. unfold count. induction (workers s) as [|x l IH]; [reflexivity|]. cbn [total filter]. rewrite IH. destruct (eager x); reflexivity. }
  rewrite <- L. apply X. apply (proj2 (count_pos waiting (workers s))). exists w. split; [exact Hw|]. unfold waiting. rewrite P. reflexivity.
Qed.
Lemma completions_after n ls s : allowed_run (init n) ls -> run (init n) ls = Ok s ->
  forall l1 c g l2, log s = l1 ++ StartedC c g :: l2 -> forall t, In t (added g (log s)) -> In t (done g l1).
Proof. intros A E. destruct (reach n ls s A E) as [I _]. exact (i_hc _ _ _ _ _ I). Qed.
Lemma wait_returns n ls s : allowed_run (init n) ls -> run (init n) ls = Ok s ->
  forall l1 g l2, log s = l1 ++ WaitReturned g :: l2 ->
   (forall t, In t (added g l1) -> In t (done g l1) \/ In t (removed g l1)) /\
   (forall c, In c (addedC g l1) -> In c (startedC g l1) \/ In c (removedC g l1)).
Proof. intros A E. destruct (reach n ls s A E) as [I _]. exact (i_hw _ _ _ _ _ I). Qed.
Lemma wait_woken n ls s : 0 < n -> no_cancel ls -> ~ In RemoveAll ls -> run (init n) ls = Ok s ->
  (exists k s', moves k s s' /\ settled s') /\
  (forall k s', moves k s s' -> settled s' -> blocked s' = []).
Proof.
  intros P N R E.
  assert (A : forall l s0, ~ In RemoveAll l -> allowed_run s0 l).
  { induction l as [|x l IH]; intros s0 H; cbn; auto. split; [intros ->; simpl in H; tauto|]. intros s1 _. apply IH. simpl in H. tauto. }
  specialize (A ls (init n) R). destruct (all_run n ls s P N A E) as (_ & X & _). split; [exact X|].
  intros k s' M T. destruct (reach n ls s A E) as [I S]. destruct (unc_workers n ls s N E) as [U L].
  destruct (moves_inv _ _ _ M I S) as [I' S']. destruct (moves_unc _ _ _ M U) as [U' L']. destruct (settled_iff s' I' S' T) as [Z O].
  assert (NE : workers s' <> []) by (intros Y; rewrite Y in L'; simpl in L'; lia).
  destruct (all_done s' I' S' U' NE Z O) as [J Q].
  assert (B : blk s') by (eapply moves_blk; [exact M|]; eapply run_blk; [|exact R|exact E]; intros g []).
  destruct (blocked s') as [|g b] eqn:BL; [reflexivity|]. specialize (B g). rewrite BL, Q in B. destruct (B (or_introl eq_refl)).
Qed.
Lemma count_full f ws : count f ws = length ws -> forall w, In w ws -> f w = true.
Proof.
  assert (LE : forall l, count f l <= length l) by (unfold count; induction l as [|x l IH]; simpl; [lia|destruct (f x); simpl; lia]).
  induction ws as [|x ws IH]; simpl; intros H w Hw; [contradiction|]. specialize (LE ws). unfold count in *. simpl in *. destruct (f x) eqn:E; simpl in *; [|lia].
  destruct Hw as [<-|Hw]; [exact E|]. apply IH; [lia|exact Hw].
Qed.
Lemma idle_no_job n ls s : run (init n) ls = Ok s -> forall s', step s IsIdle = Ok s' -> log s' = log s ++ [Idle true] -> jobs (workers s) = [].
Proof.
  intros E s' H L. pose proof (run_sync ls (init n) s (init_sync n) E) as S. cbn [step] in H.
  assert (X : idle s = length (workers s)).
  { destruct (mutex_free s); inversion H; subst; cbn in L.
    - apply app_inj_tail in L as [_ L]. inversion L as [Y]. apply Nat.eqb_eq. exact Y.
    - exfalso. apply (f_equal (@length event)) in L. rewrite app_length in L. simpl in L. lia. }
  rewrite (s_idle _ S) in X. pose proof (count_full _ _ X) as F. clear - F. induction (workers s) as [|w ws IH]; simpl; auto.
  pose proof (F w (or_introl eq_refl)) as W. unfold sleeping in W. destruct (place_of w); try discriminate; simpl; apply IH; intros v Hv; apply F; simpl; auto.
Qed.
Lemma idle_with_task : exists s, run (init 1) [Work 0; Work 0; AddTask; IsIdle] = Ok s /\ log s = [Added 0 1; Idle true] /\ queued 1 (queues s) = [0].
Proof. eexists. split; [vm_compute; reflexivity|]. split; reflexivity. Qed.
Lemma remove_running : run (init 1) [AddTask; Work 0; Work 0; RemoveAll; Work 0] = UB.
Proof. vm_compute. reflexivity. Qed.
(** The worker looks for a task, is cancelled and signalled, and only then goes to sleep. *)
Definition stop_missed : list label := [Work 0; Cancel 0; SignalAll; Work 0].
Lemma stop_waits : exists s, run (init 1) stop_missed = Ok s /\ settled s /\ workers s = [mkW Waiting true].
Proof.
  eexists. split; [vm_compute; reflexivity|]. split; [|reflexivity]. intros s' (i & [H|H] & N).
  - destruct i as [|[|i]]; cbn in H; inversion H; subst; apply N; reflexivity.
  - cbn in H. inversion H; subst. apply N; reflexivity.
Qed.
Definition cancel_all (n : nat) : list label := map Cancel (seq 0 n).
Lemma cancel_step s i : nth_error (workers s) i <> None -> exists w, nth_error (workers s) i = Some w /\ step s (Cancel i) = Ok (with_workers s (upd (workers s) i (mkW (place_of w) true)) (owed s)).
Proof. intros H. destruct (nth_error (workers s) i) as [w|] eqn:W; [|congruence]. exists w. cbn [step]. rewrite W. auto. Qed.
Lemma cancel_run : forall k a s, a + k = length (workers s) -> (forall i w, i < a -> nth_error (workers s) i = Some w -> cancelled w = true) ->
  exists s', run s (map Cancel (seq a k)) = Ok s' /\ (forall w, In w (workers s') -> cancelled w = true) /\ map place_of (workers s') = map place_of (workers s).
Proof.
  induction k as [|k IH]; intros a s L H.
  - exists s. split; [reflexivity|]. split; [|reflexivity]. intros w Hw. apply In_nth_error in Hw as (i & W). apply (H i w); [|exact W].
    assert (i < length (workers s)) by (apply nth_error_Some; congruence). lia.
  - cbn [seq map run]. assert (B : a < length (workers s)) by lia. apply nth_error_Some in B. destruct (cancel_step s a B) as (w & W & E). rewrite E. cbn [obind].
    destruct (IH (Datatypes.S a) (with_workers s (upd (workers s) a (mkW (place_of w) true)) (owed s))) as (s' & R & C & P).
    + cbn. rewrite upd_length. lia.
    + intros i v Hi V. cbn in V. destruct (Nat.eq_dec i a) as [->|Ne].
      * rewrite nth_error_upd_eq in V by (apply nth_error_Some; congruence). inversion V. reflexivity.
      * rewrite nth_error_upd_neq in V by auto. apply (H i v); [lia|exact V].
    + exists s'. split; [exact R|]. split; [exact C|]. rewrite P. cbn. destruct (upd_split _ (workers s) a (mkW (place_of w) true) w W) as (x & y & E1 & _ & U). rewrite U, E1, !map_app. reflexivity.
Qed.
Lemma allowed_app : forall a s b s1, allowed_run s a -> run s a = Ok s1 -> allowed_run s1 b -> allowed_run s (a ++ b).
Proof.
  induction a as [|l a IH]; cbn; intros s b s1 A R B; [inversion R; subst; exact B|]. destruct A as [A1 A2]. apply obind_ok in R as (s2 & R1 & R2).
  split; [exact A1|]. intros s' E. rewrite R1 in E. inversion E; subst. eapply IH; eauto.
Qed.
Lemma run_app : forall a s b s1, run s a = Ok s1 -> run s (a ++ b) = run s1 b.
Proof. induction a as [|l a IH]; cbn; intros s b s1 R; [inversion R; reflexivity|]. apply obind_ok in R as (s2 & R1 & R2). rewrite R1. cbn. eapply IH; eauto. Qed.
Lemma allowed_safe : forall ls s, ~ In RemoveAll ls -> allowed_run s ls.
Proof. induction ls as [|x l IH]; intros s0 H; cbn; auto. split; [intros ->; simpl in H; tauto|]. intros s1 _. apply IH. simpl in H. tauto. Qed.
Lemma run_workers_len : forall ls s s', run s ls = Ok s' -> length (workers s') = length (workers s).
Proof.
  assert (St : forall l s s', step s l = Ok s' -> length (workers s') = length (workers s)).
  { intros l s s' H. destruct l as [i|i|i| | |g| | |i|]; cbn [step] in H.
    - destruct (nth_error (workers s) i) as [w|]; [|inversion H; reflexivity]. unfold worker_step in H. destruct (place_of w); try (inversion H; reflexivity).
      + destruct (mutex_free s); inversion H; subst; [cbn; apply upd_length|reflexivity].
      + destruct (next_task (queues s)) as [qs [j|]]; inversion H; subst; cbn; apply upd_length.
      + destruct (mutex_free s); [|inversion H; reflexivity]. apply obind_ok in H as (qs & _ & H). inversion H; subst. cbn. apply upd_length.
      + destruct (mutex_free s); inversion H; subst; [cbn; apply upd_length|reflexivity].
    - destruct (nth_error (workers s) i) as [w|]; inversion H; subst; [cbn; apply upd_length|reflexivity].
    - destruct (owed s); [inversion H; reflexivity|]. destruct (existsb waiting (workers s)); [|inversion H; reflexivity]. destruct (nth_error (workers s) i) as [w|]; [|inversion H; reflexivity].
      destruct (waiting w); inversion H; subst; [cbn; apply upd_length|reflexivity].
    - destruct (mutex_free s); [|inversion H; reflexivity]. destruct (open_queue (queues s) (last_group s)). inversion H; reflexivity.
    - destruct (mutex_free s); [|inversion H; reflexivity]. destruct (queues s); inversion H; reflexivity.
    - destruct (mutex_free s); [|inversion H; reflexivity]. destruct (g =? 0); [inversion H; reflexivity|]. destruct (get_queue (queues s) g); inversion H; reflexivity.
    - destruct (mutex_free s); inversion H; reflexivity.
    - destruct (mutex_free s); inversion H; reflexivity.
    - destruct (nth_error (workers s) i) as [w|]; inversion H; subst; [cbn; apply upd_length|reflexivity].
    - inversion H; subst. cbn. apply map_length. }
  induction ls as [|l ls IH]; cbn; intros s s' H; [inversion H; reflexivity|]. apply obind_ok in H as (s1 & H1 & H2). rewrite (IH _ _ H2). apply (St l). exact H1.
Qed.
Lemma stop_ends n ls s : allowed_run (init n) ls -> run (init n) ls = Ok s -> (forall w, In w (workers s) -> place_of w <> Holding) ->
  exists s1, run s (cancel_all n ++ [SignalAll]) = Ok s1 /\
    (exists k s', moves k s1 s' /\ settled s') /\
    (forall k s', moves k s1 s' -> k <= left_to_do s1 /\ (settled s' -> forall w, In w (workers s') -> place_of w = Stopped)).
Proof.
  intros A E NH. pose proof (run_workers_len _ _ _ E) as L. cbn in L. rewrite repeat_length in L.
  destruct (cancel_run n 0 s ltac:(lia) ltac:(intros; lia)) as (s0 & R & C & P).
  assert (R1 : run s (cancel_all n ++ [SignalAll]) = Ok (with_workers s0 (map wake (workers s0)) (owed s0))) by (unfold cancel_all; rewrite (run_app _ _ _ _ R); reflexivity).
  exists (with_workers s0 (map wake (workers s0)) (owed s0)). split; [exact R1|].
  set (s1 := with_workers s0 (map wake (workers s0)) (owed s0)) in *.
  assert (NR : ~ In RemoveAll (cancel_all n ++ [SignalAll])).
  { unfold cancel_all. rewrite in_app_iff, in_map_iff. simpl. intros [(i & X & _)|[X|[]]]; discriminate. }
  assert (AR : allowed_run (init n) (ls ++ cancel_all n ++ [SignalAll])) by (eapply allowed_app; [exact A|exact E|apply allowed_safe; exact NR]).
  assert (RR : run (init n) (ls ++ cancel_all n ++ [SignalAll]) = Ok s1) by (rewrite (run_app _ _ _ _ E); exact R1).
  destruct (reach n _ s1 AR RR) as [I S].
  assert (ST : stopping s1).
  { intros w Hw. cbn in Hw. apply in_map_iff in Hw as (v & <- & Hv). pose proof (C v Hv) as Cv.
    assert (PV : place_of v <> Holding).
    { assert (X : In (place_of v) (map place_of (workers s))) by (rewrite <- P; apply in_map; exact Hv). apply in_map_iff in X as (u & <- & Hu). apply NH. exact Hu. }
    unfold wake, waiting. destruct (place_of v) eqn:PE; cbn; rewrite ?PE; repeat split; try discriminate; try congruence; auto. }
  split.
  - destruct (settle (Datatypes.S (left_to_do s1)) s1 ltac:(lia) I S) as (k & s' & M & I' & S' & Z & O). exists k, s'. split; [exact M|].
    intros s2 (i & [H|H] & D); cbn [step] in H.
    + destruct (nth_error (workers s') i) as [w|] eqn:W; [|inversion H; congruence]. pose proof (count_zero _ _ Z w (nth_error_In _ _ W)) as AW. unfold awake in AW. unfold worker_step in H.
      destruct (place_of w); try discriminate; inversion H; congruence.
    + rewrite O in H. inversion H; congruence.
  - intros k s' M. split; [pose proof (moves_bound _ _ _ M); lia|]. intros T w Hw. destruct (moves_inv _ _ _ M I S) as [I' S'].
    destruct (settled_iff s' I' S' T) as [Z O]. destruct (moves_stopping _ _ _ M ST w Hw) as (_ & X & _). pose proof (count_zero _ _ Z w Hw) as AW. unfold awake in AW.
    destruct (place_of w); congruence.
Qed.
