(** The thread pool's workers: sleeping and waking up. *)
Require Import Coq.Lists.List Coq.Bool.Bool Coq.Arith.Arith Coq.Sorting.Permutation Lia.
Require Import Verif.Base Verif.TPool_Model Verif.TPool_Spec Verif.TPool_Proofs.
Import ListNotations.

Definition b2n (b : bool) : nat := if b then 1 else 0.
Definition count (f : worker -> bool) (ws : list worker) : nat := total (fun w => b2n (f w)) ws.
Lemma total_app {A} (f : A -> nat) a b : total f (a ++ b) = total f a + total f b.
Proof. induction a; simpl; lia. Qed.
Lemma total_upd {A} (f : A -> nat) ws i w w' : nth_error ws i = Some w -> total f (upd ws i w') + f w = total f ws + f w'.
Proof. intros H. destruct (upd_split _ ws i w' w H) as (a & b & E & _ & U). rewrite U, E. rewrite !total_app. simpl. lia. Qed.
Lemma count_pos f ws : 0 < count f ws <-> exists w, In w ws /\ f w = true.
Proof.
  unfold count. induction ws as [|w ws IH]; simpl; [split; [lia|intros (w & [] & _)]|]. split.
  - intros H. destruct (f w) eqn:E; [exists w; auto|]. simpl in H. apply IH in H as (x & A & B). eauto.
  - intros (x & [<-|A] & B); [rewrite B; simpl; lia|]. assert (X : 0 < total (fun w => b2n (f w)) ws) by (apply IH; eauto). lia.
Qed.
Lemma count_zero f ws : count f ws = 0 -> forall w, In w ws -> f w = false.
Proof. intros H w Hw. destruct (f w) eqn:E; [|reflexivity]. assert (X : 0 < count f ws) by (apply count_pos; eauto). lia. Qed.
Lemma count_le f g ws : (forall w, f w = true -> g w = true) -> count f ws <= count g ws.
Proof. intros H. unfold count. induction ws as [|w ws IH]; simpl; [lia|]. specialize (H w). destruct (f w); simpl; [rewrite H by reflexivity; simpl; lia|lia]. Qed.
Lemma existsb_count f ws : existsb f ws = true <-> 0 < count f ws.
Proof. rewrite existsb_exists, count_pos. split; intros (w & A & B); eauto. Qed.
Lemma mutex_count s : mutex_free s = true <-> count holding (workers s) = 0.
Proof.
  unfold mutex_free. rewrite forallb_forall. split.
  - intros H. destruct (count holding (workers s)) eqn:E; [reflexivity|]. assert (X : 0 < count holding (workers s)) by lia. apply count_pos in X as (w & A & B). specialize (H w A). rewrite B in H. discriminate.
  - intros H w Hw. rewrite (count_zero _ _ H w Hw). reflexivity.
Qed.
Lemma count_one f ws w : count f ws <= 1 -> In w ws -> f w = true -> forall i v, nth_error ws i = Some v -> f v = true -> nth_error ws i = Some v.
Proof. auto. Qed.

Definition sleeping (w : worker) : bool := match place_of w with Waiting | Woken => true | _ => false end.
Definition awake (w : worker) : bool := match place_of w with Ready | Holding | Woken | Running _ => true | _ => false end.

(** A queue that a worker looking for work would leave alone. *)
Definition quiet (q : queue) : bool := match tasks q with [] => busy q | _ => false end.
Definition calm (qs : list queue) : bool := forallb quiet qs.
Lemma calm_filter qs : Forall no_work qs -> calm (filter busy qs) = true.
Proof.
  intros H. unfold calm. apply forallb_forall. intros q Hq. apply filter_In in Hq as [Hq B]. rewrite Forall_forall in H. destruct (H q Hq) as [T _]. unfold quiet. rewrite T. exact B.
Qed.

Definition todo (qs : list queue) : nat := total (fun q => length (tasks q) + length (comps q)) qs.
Definition tasks_of (qs : list queue) : nat := total (fun q => length (tasks q)) qs.
Record sync (s : pool) : Prop := mkSync {
  s_idle : idle s = count sleeping (workers s);
  s_hold : count holding (workers s) <= 1;
  s_stop : forall w, In w (workers s) -> place_of w = Stopped -> cancelled w = true;
  s_wake : (forall w, In w (workers s) -> cancelled w = false) -> workers s <> [] -> calm (queues s) = false -> 0 < owed s \/ 0 < count awake (workers s)
}.
Lemma hold_zero s : sync s -> mutex_free s = true -> count holding (workers s) = 0.
Proof. intros _ H. apply mutex_count. exact H. Qed.

(** Replacing one worker. *)
Lemma sync_put s i w p qs nid lg o l k bl : sync s -> nth_error (workers s) i = Some w ->
  (p = Holding -> place_of w = Holding \/ mutex_free s = true) ->
  (p = Stopped -> cancelled w = true) ->
  k + b2n (sleeping w) = idle s + b2n (sleeping (mkW p (cancelled w))) ->
  ((forall v, In v (upd (workers s) i (mkW p (cancelled w))) -> cancelled v = false) -> calm qs = false -> 0 < o \/ 0 < count awake (upd (workers s) i (mkW p (cancelled w)))) ->
  sync (mkT qs lg nid (upd (workers s) i (mkW p (cancelled w))) k o l bl).
Proof.
  intros [A B C D] W H1 H2 H3 H4. constructor; cbn [workers idle queues owed].
  - pose proof (total_upd (fun w => b2n (sleeping w)) _ _ _ (mkW p (cancelled w)) W) as T. unfold count in *. lia.
  - pose proof (total_upd (fun w => b2n (holding w)) _ _ _ (mkW p (cancelled w)) W) as T. cbn in T.
    destruct (holding (mkW p (cancelled w))) eqn:E; cbn in E.
    + destruct p; try discriminate. destruct (H1 eq_refl) as [X|X].
      * assert (Y : holding w = true) by (unfold holding; rewrite X; reflexivity). unfold count in *. rewrite Y in T. cbn in T. lia.
      * apply mutex_count in X. unfold count in *. cbn in T. lia.
    + unfold count in *. destruct p; cbn in *; try discriminate; lia.
  - intros v Hv. destruct (upd_split _ (workers s) i (mkW p (cancelled w)) w W) as (a & b & E & _ & U). rewrite U in Hv. apply in_app_iff in Hv as [Hv|[<-|Hv]].
    + apply C. rewrite E. apply in_app_iff. auto.
    + cbn. exact H2.
    + apply C. rewrite E. apply in_app_iff. simpl. auto.
  - intros X _ Y. apply H4; auto.
Qed.
Lemma awake_put ws i w p c : nth_error ws i = Some w -> awake (mkW p c) = true -> 0 < count awake (upd ws i (mkW p c)).
Proof. intros W A. pose proof (total_upd (fun w => b2n (awake w)) _ _ _ (mkW p c) W) as T. cbv beta in T. rewrite A in T. cbn in T. unfold count.
  assert (X : total (fun w => b2n (awake w)) ws >= b2n (awake w)). { destruct (upd_split _ ws i w w W) as (a & b & E & _). rewrite E, total_app. simpl. lia. } lia.
Qed.
Lemma not_stopped s i w : sync s -> nth_error (workers s) i = Some w -> cancelled w = false -> place_of w <> Stopped.
Proof. intros S W C E. apply nth_error_In in W. rewrite (s_stop _ S _ W E) in C. discriminate. Qed.
Lemma cancel_of ws i w p : nth_error ws i = Some w -> (forall v, In v (upd ws i (mkW p (cancelled w))) -> cancelled v = false) -> (forall v, In v ws -> cancelled v = false).
Proof.
  intros W H v Hv. destruct (upd_split _ ws i (mkW p (cancelled w)) w W) as (a & b & E & _ & U). rewrite E in Hv. apply in_app_iff in Hv as [Hv|[<-|Hv]].
  - apply H. rewrite U. apply in_app_iff. auto.
  - apply (H (mkW p (cancelled w))). rewrite U. apply in_app_iff. simpl. auto.
  - apply H. rewrite U. apply in_app_iff. simpl. auto.
Qed.
Ltac slp := unfold sleeping; match goal with P : place_of ?w = _ |- _ => rewrite ?P end; cbn; try lia.
Lemma loop_head_sync s i w : sync s -> nth_error (workers s) i = Some w -> mutex_free s = true ->
  forall qs lg nid o l k b, k + b2n (sleeping w) = idle s -> sync (loop_head (mkT qs lg nid (workers s) k o l b) i w).
Proof.
  intros S W M qs lg nid o l k b K. unfold loop_head, put_worker. cbn. eapply sync_put; eauto.
  - destruct (cancelled w); [auto|discriminate].
  - destruct (cancelled w); cbn; lia.
  - intros X _. right. pose proof (cancel_of _ _ _ _ W X w (nth_error_In _ _ W)) as Y. rewrite Y. eapply awake_put; [exact W|reflexivity].
Qed.
Lemma sync_queues s qs lg nid o l b : sync s -> (calm qs = false -> 0 < o \/ (calm (queues s) = false /\ o = owed s)) -> sync (mkT qs lg nid (workers s) (idle s) o l b).
Proof.
  intros [A B C D] H. constructor; cbn; auto. intros X Y Z. destruct (H Z) as [P|[P ->]]; auto.
Qed.
Lemma wake_sync s i w o : sync s -> nth_error (workers s) i = Some w -> waiting w = true -> sync (with_workers s (upd (workers s) i (wake w)) o).
Proof.
  intros S W V. unfold with_workers, wake. rewrite V. unfold waiting in V. destruct (place_of w) eqn:P; try discriminate.
  eapply sync_put; eauto; try discriminate.
  - slp.
  - intros _ _. right. eapply awake_put; [exact W|reflexivity].
Qed.
Lemma upd_same {A} (l : list A) i x : nth_error l i = Some x -> upd l i x = l.
Proof. intros H. destruct (upd_split _ l i x x H) as (a & b & E & _ & U). congruence. Qed.
Lemma step_sync s l s' : sync s -> step s l = Ok s' -> sync s'.
Proof.
  intros S H. destruct l as [i|i|i| | |g| | |i|]; cbn [step] in H.
  - destruct (nth_error (workers s) i) as [w|] eqn:W; [|inversion H; subst; exact S]. unfold worker_step in H.
    destruct (place_of w) as [| |j| | |] eqn:P; try (inversion H; subst; exact S).
    + destruct (mutex_free s) eqn:M; [|inversion H; subst; exact S]. inversion H; subst. destruct s. apply (loop_head_sync _ _ _ S W M). cbn. slp.
    + destruct (next_task (queues s)) as [qs [j|]] eqn:N; inversion H; subst; unfold with_blocked, note, put_worker, after_freeing, with_idle, with_queues; cbn.
      * eapply sync_put; eauto; try discriminate; [slp|]. intros _ _. right. eapply awake_put; [exact W|reflexivity].
      * eapply sync_put; eauto; try discriminate; [slp|]. intros _ X. apply next_none in N as [F ->]. rewrite (calm_filter _ F) in X. discriminate.
    + destruct (mutex_free s) eqn:M; [|inversion H; subst; exact S]. destruct (complete (queues s) j); cbn [obind] in H; try discriminate. inversion H; subst.
      apply (loop_head_sync _ _ _ S W M). slp.
    + destruct (mutex_free s) eqn:M; [|inversion H; subst; exact S]. inversion H; subst. apply (loop_head_sync _ _ _ S W M). slp.
      destruct (idle s) eqn:E; [|cbn; lia]. rewrite (s_idle _ S) in E. pose proof (count_zero _ _ E w (nth_error_In _ _ W)) as X. unfold sleeping in X. rewrite P in X. discriminate.
  - destruct (nth_error (workers s) i) as [w|] eqn:W; inversion H; subst; [|exact S].
    destruct (waiting w) eqn:V; [apply wake_sync; auto|]. unfold wake. rewrite V. rewrite (upd_same _ _ _ W). destruct s; exact S.
  - destruct (owed s) as [|o] eqn:O; [inversion H; subst; exact S|]. destruct (existsb waiting (workers s)) eqn:E.
    + destruct (nth_error (workers s) i) as [w|] eqn:W; [|inversion H; subst; exact S]. destruct (waiting w) eqn:V; inversion H; subst; [|exact S]. apply wake_sync; auto.
    + inversion H; subst. destruct S as [A B C D]. constructor; cbn; auto. intros X Y Z. right.
      destruct (workers s) as [|w ws] eqn:WS; [congruence|]. apply (proj2 (count_pos awake (w :: ws))). exists w. split; [simpl; auto|].
      assert (E1 : waiting w = false) by (simpl in E; apply orb_false_iff in E; tauto). specialize (C w (or_introl eq_refl)). specialize (X w (or_introl eq_refl)).
      unfold waiting, awake in *. destruct (place_of w); auto; try discriminate. rewrite C in X by reflexivity. discriminate.
  - destruct (mutex_free s); [|inversion H; subst; exact S]. destruct (open_queue (queues s) (last_group s)) as [qs lg]. inversion H; subst. apply sync_queues; auto. intros _. left. lia.
  - destruct (mutex_free s); [|inversion H; subst; exact S]. destruct (queues s) eqn:Q; inversion H; subst; apply sync_queues; auto; try (intros _; left; lia).
    discriminate.
  - destruct (mutex_free s); [|inversion H; subst; exact S]. destruct (g =? 0); [inversion H; subst; exact S|]. destruct (get_queue (queues s) g); inversion H; subst.
    + apply (sync_queues s); auto. intros X. right. split; [|reflexivity]. cbn in X. rewrite <- X. unfold calm, set_queue. clear.
      induction (queues s) as [|q qs IH]; simpl; auto. rewrite <- IH. destruct (group q =? g); reflexivity.
    + apply sync_queues; auto.
  - destruct (mutex_free s); inversion H; subst; [|exact S]. apply (sync_queues s); auto. discriminate.
  - destruct (mutex_free s); inversion H; subst; [|exact S]. apply (sync_queues s); auto.
  - destruct (nth_error (workers s) i) as [w|] eqn:W; inversion H; subst; [|exact S]. destruct S as [A B C D].
    destruct (upd_split _ (workers s) i (mkW (place_of w) true) w W) as (a & b & E & _ & U).
    constructor; cbn.
    + rewrite A, U, E. unfold count. rewrite !total_app. simpl. reflexivity.
    + rewrite U. rewrite E in B. unfold count in *. rewrite !total_app in *. simpl in *. exact B.
    + rewrite U. intros v Hv Pv. apply in_app_iff in Hv as [Hv|[<-|Hv]]; [apply C; auto|reflexivity|apply C; auto]; rewrite E; apply in_app_iff; simpl; auto.
    + intros X. specialize (X (mkW (place_of w) true)). rewrite U in X. assert (Y : true = false) by (apply X; apply in_app_iff; simpl; auto). discriminate.
  - inversion H; subst. destruct S as [A B C D].
    assert (X : forall ws, count sleeping (map wake ws) = count sleeping ws /\ count holding (map wake ws) = count holding ws /\ count awake ws <= count awake (map wake ws)).
    { unfold count. induction ws as [|w ws (I1 & I2 & I3)]; simpl; auto. rewrite I1, I2. unfold wake, waiting, sleeping, holding, awake in *. destruct w as [[] c]; cbn; repeat split; lia. }
    destruct (X (workers s)) as (X1 & X2 & X3). unfold with_workers. constructor; cbn [workers idle owed queues]; [lia|lia| |].
    + intros v Hv Pv. apply in_map_iff in Hv as (u & <- & Hu). unfold wake in *. destruct (waiting u) eqn:V; [discriminate|]. apply C; auto.
    + intros Y Z V. assert (Y' : forall w, In w (workers s) -> cancelled w = false).
      { intros w Hw. specialize (Y (wake w) (in_map wake _ _ Hw)). unfold wake in Y. destruct (waiting w); exact Y. }
      assert (Z' : workers s <> []) by (intros E; apply Z; rewrite E; reflexivity). destruct (D Y' Z' V); [auto|right; lia].
Qed.
Lemma init_sync n : sync (init n).
Proof.
  unfold init. constructor; cbn.
  - unfold count. induction n; simpl; auto.
  - unfold count. induction n; simpl; auto.
  - intros w H. apply repeat_spec in H. subst. discriminate.
  - discriminate.
Qed.
Lemma run_sync : forall ls s s', sync s -> run s ls = Ok s' -> sync s'.
Proof.
  induction ls as [|l ls IH]; cbn [run]; intros s s' S H; [inversion H; subst; exact S|].
  apply obind_ok in H as (s1 & H1 & H2). eapply IH; [eapply step_sync; eauto|exact H2].
Qed.
