(** The thread pool's work gets done. *)
Require Import Coq.Lists.List Coq.Bool.Bool Coq.Arith.Arith Coq.Sorting.Permutation Lia.
Require Import Verif.Base Verif.TPool_Model Verif.TPool_Spec Verif.TPool_Proofs Verif.TPool_Sync.
Import ListNotations.

Lemma todo_filter qs : todo (filter busy qs) <= todo qs.
Proof. unfold todo. induction qs as [|q qs IH]; simpl; [lia|]. destruct (busy q); simpl; lia. Qed.
Lemma next_todo qs qs' j : next_task qs = (qs', j) -> todo qs' + (match j with Some _ => 1 | None => 0 end) <= todo qs.
Proof.
  destruct j as [j|]; intros H.
  - apply next_some in H as (pre & q & post & q' & -> & _ & -> & D). pose proof (todo_filter pre) as F. unfold todo in *. rewrite !total_app. simpl.
    destruct D as [(t & ts & T & -> & _)|(c & cs & T & _ & C & -> & _)]; cbn [tasks comps]; rewrite T; [|rewrite C]; simpl; lia.
  - apply next_none in H as [_ ->]. pose proof (todo_filter qs). lia.
Qed.
Lemma todo_set qs g f : (forall q, length (tasks (f q)) = length (tasks q) /\ length (comps (f q)) = length (comps q)) -> todo (set_queue qs g f) = todo qs.
Proof. intros H. unfold todo, set_queue. induction qs as [|q qs IH]; simpl; [lia|]. rewrite IH. destruct (group q =? g); [|lia]. destruct (H q) as [-> ->]. lia. Qed.
Lemma complete_todo qs j qs' : complete qs j = Ok qs' -> todo qs' = todo qs.
Proof.
  unfold complete. destruct (taskGroup j =? 0); [intros H; inversion H; reflexivity|]. destruct (get_queue qs (taskGroup j)) as [q|]; [|discriminate].
  destruct (pending q); [discriminate|]. intros H. inversion H. apply todo_set. intros x. split; reflexivity.
Qed.
Lemma left_unfold s : left_to_do s = 3 * todo (queues s) + total rank (workers s) + 3 * owed s. Proof. reflexivity. Qed.
Lemma rank_upd ws i w w' : nth_error ws i = Some w -> total rank (upd ws i w') + rank w = total rank ws + rank w'.
Proof. apply total_upd. Qed.
Lemma move_less s s' : move s s' -> left_to_do s' < left_to_do s.
Proof.
  intros (i & [H|H] & N); cbn [step] in H.
  - destruct (nth_error (workers s) i) as [w|] eqn:W; [|inversion H; congruence]. unfold worker_step in H.
    assert (Rw : forall p c, total rank (upd (workers s) i (mkW p c)) + rank w = total rank (workers s) + rank (mkW p c)) by (intros; apply rank_upd; exact W).
    destruct (place_of w) as [| |j| | |] eqn:P; try (inversion H; congruence).
    + destruct (mutex_free s); inversion H; subst; [|congruence]. rewrite !left_unfold. cbn [loop_head put_worker queues workers owed].
      specialize (Rw (if cancelled w then Stopped else Holding) (cancelled w)). unfold rank in Rw at 2 4. rewrite P in Rw. cbn in Rw. destruct (cancelled w); lia.
    + destruct (next_task (queues s)) as [qs [j|]] eqn:X; inversion H; subst; rewrite !left_unfold; cbn [with_blocked note put_worker after_freeing with_queues with_idle queues workers owed]; apply next_todo in X; cbn in X.
      * specialize (Rw (Running j) (cancelled w)). unfold rank in Rw at 2 4. rewrite P in Rw. cbn in Rw. lia.
      * specialize (Rw Waiting (cancelled w)). unfold rank in Rw at 2 4. rewrite P in Rw. cbn in Rw. lia.
    + destruct (mutex_free s); [|inversion H; congruence]. apply obind_ok in H as (qs & C & H). inversion H; subst. apply complete_todo in C. rewrite !left_unfold. cbn [loop_head put_worker note with_queues queues workers owed].
      specialize (Rw (if cancelled w then Stopped else Holding) (cancelled w)). unfold rank in Rw at 2 4. rewrite P in Rw. cbn in Rw. destruct (cancelled w); lia.
    + destruct (mutex_free s); inversion H; subst; [|congruence]. rewrite !left_unfold. cbn [loop_head put_worker with_idle queues workers owed].
      specialize (Rw (if cancelled w then Stopped else Holding) (cancelled w)). unfold rank in Rw at 2 4. rewrite P in Rw. cbn in Rw. destruct (cancelled w); lia.
  - destruct (owed s) as [|o] eqn:O; [inversion H; congruence|]. destruct (existsb waiting (workers s)).
    + destruct (nth_error (workers s) i) as [w|] eqn:W; [|inversion H; congruence]. destruct (waiting w) eqn:V; inversion H; subst; [|congruence].
      rewrite !left_unfold. cbn [with_workers queues workers owed]. rewrite O. pose proof (rank_upd _ _ _ (wake w) W) as R. unfold wake in *. rewrite V in *.
      unfold waiting in V. unfold rank in R at 2 4. destruct (place_of w); try discriminate. cbn in R. lia.
    + inversion H; subst. rewrite !left_unfold. cbn [with_workers queues workers owed]. lia.
Qed.
Lemma moves_bound n s s' : moves n s s' -> n + left_to_do s' <= left_to_do s.
Proof. induction 1; [lia|]. apply move_less in H. lia. Qed.

(** There is a move unless everybody is asleep and no signal is on the way. *)
Definition asleep (w : worker) : bool := match place_of w with Waiting | Stopped => true | _ => false end.
Lemma asleep_awake w : asleep w = negb (awake w). Proof. unfold asleep, awake. destruct (place_of w); reflexivity. Qed.
Lemma put_ne s s' w i p : nth_error (workers s) i = Some w -> place_of w <> p -> workers s' = upd (workers s) i (mkW p (cancelled w)) -> s' <> s.
Proof.
  intros W N E X. subst s'. assert (nth_error (upd (workers s) i (mkW p (cancelled w))) i = Some (mkW p (cancelled w))) as Y.
  { apply nth_error_upd_eq. apply nth_error_Some. congruence. } rewrite <- E in Y. rewrite W in Y. inversion Y as [Z]. apply N. rewrite Z. reflexivity.
Qed.
Lemma can_move s : Inv s -> sync s -> (exists s', move s s') \/ (count awake (workers s) = 0 /\ owed s = 0).
Proof.
  intros I S. destruct (count holding (workers s)) as [|n] eqn:CH.
  - destruct (count awake (workers s)) as [|n] eqn:CA.
    + destruct (owed s) as [|o] eqn:O; [auto|]. left.
      destruct (existsb waiting (workers s)) eqn:E.
      * pose proof E as E0. apply existsb_exists in E as (w & Hw & V). apply In_nth_error in Hw as (i & W). eexists. exists i. split; [right; cbn [step]; rewrite O, E0, W, V; reflexivity|].
        intros X. apply (f_equal owed) in X. cbn in X. lia.
      * eexists. exists 0. split; [right; cbn [step]; rewrite O, E; reflexivity|]. intros X. apply (f_equal owed) in X. cbn in X. lia.
    + left. assert (X : 0 < count awake (workers s)) by lia. apply count_pos in X as (w & Hw & A). apply In_nth_error in Hw as (i & W).
      assert (M : mutex_free s = true) by (apply mutex_count; exact CH).
      destruct (step_inv s (Work i) I ltac:(discriminate)) as (s' & E & _). exists s', i. split; [left; exact E|].
      assert (NH : place_of w <> Holding).
      { intros P. pose proof (count_zero _ _ CH w (nth_error_In _ _ W)) as Z. unfold holding in Z. rewrite P in Z. discriminate. }
      cbn [step] in E. rewrite W in E. unfold worker_step in E. rewrite M in E. unfold awake in A.
      assert (K : place_of w <> (if cancelled w then Stopped else Holding)) by (destruct (cancelled w); [destruct (place_of w); discriminate|exact NH]).
      destruct (place_of w) as [| |j| | |] eqn:P; try discriminate; try congruence.
      * inversion E; subst. eapply put_ne; [exact W| |reflexivity]. rewrite P. exact K.
      * apply obind_ok in E as (qs & C & E). inversion E; subst. eapply put_ne; [exact W| |reflexivity]. rewrite P. exact K.
      * inversion E; subst. eapply put_ne; [exact W| |reflexivity]. rewrite P. exact K.
  - left. assert (X : 0 < count holding (workers s)) by lia. apply count_pos in X as (w & Hw & A). apply In_nth_error in Hw as (i & W).
    destruct (step_inv s (Work i) I ltac:(discriminate)) as (s' & E & _). exists s', i. split; [left; exact E|].
    unfold holding in A. destruct (place_of w) eqn:P; try discriminate. cbn [step] in E. rewrite W in E. unfold worker_step in E. rewrite P in E.
    destruct (next_task (queues s)) as [qs [j|]]; inversion E; subst; (eapply put_ne; [exact W| |reflexivity]); rewrite P; discriminate.
Qed.
Lemma settle : forall n s, left_to_do s < n -> Inv s -> sync s -> exists k s', moves k s s' /\ Inv s' /\ sync s' /\ count awake (workers s') = 0 /\ owed s' = 0.
Proof.
  induction n as [|n IH]; intros s L I S; [lia|]. destruct (can_move s I S) as [(s1 & M)|[A B]].
  - assert (IS : Inv s1 /\ sync s1).
    { destruct M as (i & [E|E] & _).
      - destruct (step_inv s (Work i) I ltac:(discriminate)) as (x & E' & I'). rewrite E' in E. inversion E; subst. split; [exact I'|eapply step_sync; eauto].
      - destruct (step_inv s (Signal i) I ltac:(discriminate)) as (x & E' & I'). rewrite E' in E. inversion E; subst. split; [exact I'|eapply step_sync; eauto]. }
    pose proof (move_less _ _ M). destruct (IH s1 ltac:(lia) (proj1 IS) (proj2 IS)) as (k & s' & Mv & R). exists (Datatypes.S k), s'. split; [econstructor; eauto|exact R].
  - exists 0, s. split; [constructor|auto].
Qed.
Lemma moves_inv n s s' : moves n s s' -> Inv s -> sync s -> Inv s' /\ sync s'.
Proof.
  induction 1 as [|n s s1 s2 M Ms IH]; auto. intros I S. destruct M as (i & [E|E] & _).
  - destruct (step_inv s (Work i) I ltac:(discriminate)) as (x & E' & I'). rewrite E' in E. inversion E; subst. apply IH; [exact I'|eapply step_sync; eauto].
  - destruct (step_inv s (Signal i) I ltac:(discriminate)) as (x & E' & I'). rewrite E' in E. inversion E; subst. apply IH; [exact I'|eapply step_sync; eauto].
Qed.
Lemma settled_iff s : Inv s -> sync s -> settled s -> count awake (workers s) = 0 /\ owed s = 0.
Proof. intros I S H. destruct (can_move s I S) as [(s' & M)|X]; [exfalso; exact (H s' M)|exact X]. Qed.

(** ** Workers that are not cancelled *)
Definition uncancelled (s : pool) : Prop := forall w, In w (workers s) -> cancelled w = false.
Lemma unc_upd s i w p c ws : uncancelled s -> nth_error (workers s) i = Some w -> c = false -> ws = upd (workers s) i (mkW p c) -> forall v, In v ws -> cancelled v = false.
Proof.
  intros U W C -> v Hv. destruct (upd_split _ (workers s) i (mkW p c) w W) as (a & b & E & _ & X). rewrite X in Hv.
  apply in_app_iff in Hv as [Hv|[<-|Hv]]; [apply U; rewrite E; apply in_app_iff; auto|exact C|apply U; rewrite E; apply in_app_iff; simpl; auto].
Qed.
Lemma step_unc s l s' : uncancelled s -> (forall i, l <> Cancel i) -> step s l = Ok s' -> uncancelled s' /\ length (workers s') = length (workers s).
Proof.
  intros U N H.
  assert (Same : s' = s -> uncancelled s' /\ length (workers s') = length (workers s)) by (intros ->; auto).
  assert (Ws : workers s' = workers s -> uncancelled s' /\ length (workers s') = length (workers s)) by (intros E; unfold uncancelled; rewrite E; auto).
  assert (Put : forall i w p, nth_error (workers s) i = Some w -> workers s' = upd (workers s) i (mkW p (cancelled w)) -> uncancelled s' /\ length (workers s') = length (workers s)).
  { intros i w p W E. unfold uncancelled. rewrite E. split; [|apply upd_length]. intros v Hv. assert (CW : cancelled w = false) by (apply U; eapply nth_error_In; eauto). exact (unc_upd s i w p (cancelled w) _ U W CW eq_refl v Hv). }
  assert (Wk : forall i w, nth_error (workers s) i = Some w -> workers s' = upd (workers s) i (wake w) -> uncancelled s' /\ length (workers s') = length (workers s)).
  { intros i w W E. unfold wake in E. destruct (waiting w); [eapply Put; eauto|]. rewrite (upd_same _ _ _ W) in E. auto. }
  destruct l as [i|i|i| | |g| | |i|]; cbn [step] in H.
  - destruct (nth_error (workers s) i) as [w|] eqn:W; [|inversion H; subst; apply Same; reflexivity]. unfold worker_step in H.
    destruct (place_of w) as [| |j| | |]; try (inversion H; subst; apply Same; reflexivity).
    + destruct (mutex_free s); inversion H; subst; [eapply Put; [exact W|reflexivity]|auto].
    + destruct (next_task (queues s)) as [qs [j|]]; inversion H; subst; eapply Put; try exact W; reflexivity.
    + destruct (mutex_free s); [|inversion H; subst; auto]. apply obind_ok in H as (qs & _ & H). inversion H; subst. eapply Put; [exact W|reflexivity].
    + destruct (mutex_free s); inversion H; subst; [eapply Put; [exact W|reflexivity]|auto].
  - destruct (nth_error (workers s) i) as [w|] eqn:W; inversion H; subst; [eapply Wk; [exact W|reflexivity]|auto].
  - destruct (owed s); [inversion H; subst; auto|]. destruct (existsb waiting (workers s)); [|inversion H; subst; auto].
    destruct (nth_error (workers s) i) as [w|] eqn:W; [|inversion H; subst; auto]. destruct (waiting w); inversion H; subst; [eapply Wk; [exact W|reflexivity]|auto].
  - destruct (mutex_free s); [|inversion H; subst; auto]. destruct (open_queue (queues s) (last_group s)). inversion H; subst. auto.
  - destruct (mutex_free s); [|inversion H; subst; auto]. destruct (queues s); inversion H; subst; auto.
  - destruct (mutex_free s); [|inversion H; subst; auto]. destruct (g =? 0); [inversion H; subst; auto|]. destruct (get_queue (queues s) g); inversion H; subst; auto.
  - destruct (mutex_free s); inversion H; subst; auto.
  - destruct (mutex_free s); inversion H; subst; auto.
  - exfalso. apply (N i). reflexivity.
  - inversion H; subst. unfold uncancelled. cbn. split; [|apply map_length]. intros v Hv. apply in_map_iff in Hv as (w & <- & Hw). specialize (U w Hw). unfold wake. destruct (waiting w); exact U.
Qed.
Lemma run_unc : forall ls s s', uncancelled s -> no_cancel ls -> run s ls = Ok s' -> uncancelled s' /\ length (workers s') = length (workers s).
Proof.
  induction ls as [|l ls IH]; cbn [run]; intros s s' U N H; [inversion H; subst; auto|].
  apply obind_ok in H as (s1 & H1 & H2). destruct (step_unc s l s1 U) as [U1 L1]; auto.
  - intros i ->. apply (N i). simpl. auto.
  - destruct (IH s1 s' U1) as [U2 L2]; auto; [|split; [exact U2|lia]]. intros i Hi. apply (N i). simpl. auto.
Qed.
Lemma moves_unc n s s' : moves n s s' -> uncancelled s -> uncancelled s' /\ length (workers s') = length (workers s).
Proof.
  induction 1 as [|n s s1 s2 M Ms IH]; auto. intros U. destruct M as (i & [E|E] & _).
  - destruct (step_unc s (Work i) s1 U ltac:(discriminate) E) as [A B]. destruct (IH A) as [C D]. split; [exact C|lia].
  - destruct (step_unc s (Signal i) s1 U ltac:(discriminate) E) as [A B]. destruct (IH A) as [C D]. split; [exact C|lia].
Qed.
(** When everybody is asleep, everything is done. *)
Lemma all_done s : Inv s -> sync s -> uncancelled s -> workers s <> [] -> count awake (workers s) = 0 -> owed s = 0 ->
  jobs (workers s) = [] /\ queues s = [].
Proof.
  intros I S U N A O.
  assert (J : jobs (workers s) = []).
  { destruct (jobs (workers s)) as [|j js] eqn:E; [reflexivity|]. exfalso. assert (X : In j (jobs (workers s))) by (rewrite E; simpl; auto).
    unfold jobs in X. apply in_flat_map in X as (w & Hw & X). pose proof (count_zero _ _ A w Hw) as Z. unfold awake in Z. destruct (place_of w); try contradiction. discriminate. }
  split; [exact J|]. assert (NW : calm (queues s) = true).
  { destruct (calm (queues s)) eqn:E; [reflexivity|]. exfalso. destruct (s_wake _ S U N E) as [X|X]; lia. }
  destruct (queues s) as [|q qs] eqn:Q; [reflexivity|]. exfalso. unfold calm in NW. simpl in NW. apply andb_prop in NW as [NW _].
  assert (Hq : In q (queues s)) by (rewrite Q; simpl; auto). pose proof (i_pend _ _ _ _ _ I q Hq) as P. rewrite J in P. unfold quiet in NW.
  destruct (tasks q); [|discriminate]. unfold busy in NW. rewrite P in NW. discriminate.
Qed.
(** ** Clients that wait for a group *)
Definition blk (s : pool) : Prop := forall g, In g (blocked s) -> In g (groups (queues s)).
Lemma filter_le {A} (f : A -> bool) l : length (filter f l) <= length l.
Proof. induction l as [|x l IH]; simpl; [lia|]. destruct (f x); simpl; lia. Qed.
Lemma filter_all {A} (f : A -> bool) l : length (filter f l) = length l -> filter f l = l.
Proof.
  induction l as [|x l IH]; simpl; auto. destruct (f x); simpl; intros H; [f_equal; apply IH; lia|]. pose proof (filter_le f l). lia.
Qed.
Lemma groups_set qs g f : (forall q, group (f q) = group q) -> groups (set_queue qs g f) = groups qs.
Proof. intros H. unfold groups, set_queue. rewrite map_map. apply map_ext. intros q. destruct (group q =? g); auto. Qed.
Lemma groups_set_last qs f : (forall q, group (f q) = group q) -> groups (set_last qs f) = groups qs.
Proof. intros H. unfold groups. induction qs as [|q [|q1 qs] IH]; simpl in *; [reflexivity|rewrite H; reflexivity|]. rewrite <- IH. reflexivity. Qed.
Lemma complete_groups qs j qs' : complete qs j = Ok qs' -> groups qs' = groups qs.
Proof.
  unfold complete. destruct (taskGroup j =? 0); [intros H; inversion H; reflexivity|]. destruct (get_queue qs (taskGroup j)) as [q|]; [|discriminate].
  destruct (pending q); [discriminate|]. intros H. inversion H. apply groups_set. reflexivity.
Qed.
Lemma ok_inj {A} (a b : A) : Ok a = Ok b -> a = b. Proof. congruence. Qed.
Lemma step_blk s l s' : blk s -> l <> RemoveAll -> step s l = Ok s' -> blk s'.
Proof.
  intros B N H. unfold blk in *.
  destruct l as [i|i|i| | |g| | |i|]; cbn [step] in H.
  - destruct (nth_error (workers s) i) as [w|] eqn:W; [|inversion H; subst; auto]. unfold worker_step in H.
    destruct (place_of w) as [| |j| | |]; try (inversion H; subst; exact B).
    + destruct (mutex_free s); inversion H; subst; auto.
    + destruct (next_task (queues s)) as [qs [j|]] eqn:X; inversion H; subst; cbn [with_blocked note put_worker after_freeing with_idle with_queues queues blocked].
      * apply next_some in X as (pre & q & post & q' & E & _ & -> & D).
        assert (Gq : group q' = group q) by (destruct D as [(t & ts & _ & -> & _)|(c & cs & _ & _ & _ & -> & _)]; reflexivity).
        destruct (length (filter busy pre ++ q' :: post) <? length (queues s)) eqn:L; [intros g []|].
        apply Nat.ltb_ge in L. rewrite E, !app_length in L. simpl in L. pose proof (filter_le busy pre).
        rewrite (filter_all busy pre) by lia. intros g Hg. rewrite (groups_mid pre q post q' Gq). rewrite <- E. apply B. exact Hg.
      * intros g [].
    + destruct (mutex_free s); [|inversion H; subst; auto]. apply obind_ok in H as (qs & C & H). inversion H; subst. cbn [loop_head put_worker note with_queues queues blocked]. rewrite (complete_groups _ _ _ C). exact B.
    + destruct (mutex_free s); inversion H; subst; auto.
  - destruct (nth_error (workers s) i) as [w|] eqn:W; inversion H; subst; auto.
  - destruct (owed s); [inversion H; subst; auto|]. destruct (existsb waiting (workers s)); [|inversion H; subst; auto].
    destruct (nth_error (workers s) i) as [w|] eqn:W; [|inversion H; subst; auto]. destruct (waiting w); inversion H; subst; auto.
  - destruct (mutex_free s); [|inversion H; subst; auto]. destruct (open_queue (queues s) (last_group s)) as [qs lg] eqn:O. inversion H; subst. cbn [queues blocked].
    intros g Hg. rewrite groups_set_last by reflexivity. specialize (B g Hg). unfold open_queue in O. destruct (last_queue (queues s)) as [q|] eqn:L.
    + destruct (closed q); inversion O; subst; [rewrite groups_app, in_app_iff; auto|exact B].
    + apply last_none in L. rewrite L in B. destruct B.
  - destruct (mutex_free s); [|inversion H; subst; auto]. destruct (queues s) as [|q0 qs] eqn:Q; apply ok_inj in H; subst s'; cbn [queues blocked].
    + rewrite <- Q in *. exact B.
    + intros g Hg. rewrite groups_set_last by reflexivity. apply B. exact Hg.
  - destruct (mutex_free s); [|inversion H; subst; auto]. destruct (g =? 0); [inversion H; subst; auto|]. destruct (get_queue (queues s) g) as [q|] eqn:G; apply ok_inj in H; subst s'; cbn [with_blocked with_queues note queues blocked]; auto.
    intros h. rewrite groups_set by reflexivity. intros [<-|Hh]; [|apply B; exact Hh]. apply get_queue_split in G as (a & b & E & Hg). rewrite E. rewrite groups_app, in_app_iff. simpl. auto.
  - congruence.
  - destruct (mutex_free s); inversion H; subst; auto.
  - destruct (nth_error (workers s) i) as [w|] eqn:W; inversion H; subst; auto.
  - inversion H; subst; auto.
Qed.
Lemma run_blk : forall ls s s', blk s -> ~ In RemoveAll ls -> run s ls = Ok s' -> blk s'.
Proof.
  induction ls as [|l ls IH]; cbn [run]; intros s s' B N H; [inversion H; subst; exact B|]. apply obind_ok in H as (s1 & H1 & H2).
  eapply IH; [|intros X; apply N; simpl; auto|exact H2]. eapply step_blk; [exact B| |exact H1]. intros ->. apply N. simpl. auto.
Qed.
Lemma moves_blk n s s' : moves n s s' -> blk s -> blk s'.
Proof. induction 1 as [|n s s1 s2 M Ms IH]; auto. intros B. apply IH. destruct M as (i & [E|E] & _); eapply step_blk; eauto; discriminate. Qed.

(** ** Without completions, no task waits while a worker does *)
Definition ready_for (s : pool) : Prop :=
  (forall q, In q (queues s) -> comps q = []) /\ (0 < count waiting (workers s) -> tasks_of (queues s) <= owed s + count eager (workers s)).
Lemma tasks_filter qs : tasks_of (filter busy qs) <= tasks_of qs.
Proof. unfold tasks_of. induction qs as [|q qs IH]; simpl; [lia|]. destruct (busy q); simpl; lia. Qed.
Lemma tasks_none qs : Forall no_work qs -> tasks_of qs = 0.
Proof. unfold tasks_of. induction 1 as [|q qs [T _] _ IH]; simpl; auto. rewrite T. simpl. exact IH. Qed.
Lemma tasks_set qs g f : (forall q, length (tasks (f q)) = length (tasks q)) -> tasks_of (set_queue qs g f) = tasks_of qs.
Proof. intros H. unfold tasks_of, set_queue. induction qs as [|q qs IH]; simpl; [lia|]. rewrite IH. destruct (group q =? g); [|lia]. rewrite H. lia. Qed.
Lemma in_set qs g f (P : queue -> Prop) : (forall q, P q -> P (f q)) -> (forall q, In q qs -> P q) -> forall q, In q (set_queue qs g f) -> P q.
Proof. intros H A q Hq. unfold set_queue in Hq. apply in_map_iff in Hq as (x & <- & Hx). destruct (group x =? g); auto. Qed.
Lemma upd_count f ws i w w' : nth_error ws i = Some w -> count f (upd ws i w') + b2n (f w) = count f ws + b2n (f w').
Proof. intros W. exact (total_upd (fun w => b2n (f w)) ws i w w' W). Qed.
Lemma step_ready s l s' : ready_for s -> uncancelled s -> (forall i, l <> Cancel i) -> l <> AddCompletion -> step s l = Ok s' -> ready_for s'.
Proof.
  intros [C R] U N1 N2 H. unfold ready_for.
  assert (Pt : forall i w p, nth_error (workers s) i = Some w ->
     count waiting (upd (workers s) i (mkW p (cancelled w))) + b2n (waiting w) = count waiting (workers s) + b2n (waiting (mkW p false)) /\
     count eager (upd (workers s) i (mkW p (cancelled w))) + b2n (eager w) = count eager (workers s) + b2n (eager (mkW p false))).
  { intros i w p W. split; [exact (upd_count waiting _ _ _ (mkW p (cancelled w)) W)|exact (upd_count eager _ _ _ (mkW p (cancelled w)) W)]. }
  assert (Head : forall i w, nth_error (workers s) i = Some w -> (if cancelled w then Stopped else Holding) = Holding).
  { intros i w W. rewrite (U w (nth_error_In _ _ W)). reflexivity. }
  destruct l as [i|i|i| | |g| | |i|]; cbn [step] in H.
  - destruct (nth_error (workers s) i) as [w|] eqn:W; [|inversion H; subst; auto]. unfold worker_step in H.
    destruct (place_of w) as [| |j| | |] eqn:P; try (inversion H; subst; auto).
    + destruct (mutex_free s); inversion H; subst; auto. unfold loop_head. rewrite (Head i w W). cbn [put_worker queues workers owed]. split; [exact C|].
      destruct (Pt i w Holding W) as [A B]. unfold waiting in A at 2 4. unfold eager in B at 2 4. rewrite P in A, B. cbn in A, B. intros X. specialize (R ltac:(lia)). lia.
    + destruct (next_task (queues s)) as [qs [j|]] eqn:X; inversion H; subst; cbn [with_blocked note put_worker after_freeing with_idle with_queues queues workers owed].
      * apply next_some in X as (pre & q & post & q' & E & _ & -> & D).
        destruct D as [(t & ts & T & -> & ->)|(c & cs & _ & _ & CC & _ & _)]; [|rewrite (C q) in CC by (rewrite E; apply in_app_iff; simpl; auto); discriminate].
        split.
        { intros x Hx. apply in_app_iff in Hx as [Hx|[<-|Hx]].
          - apply filter_In in Hx as [Hx _]. apply C. rewrite E. apply in_app_iff. auto.
          - cbn [comps]. apply C. rewrite E. apply in_app_iff. simpl. auto.
          - apply C. rewrite E. apply in_app_iff. simpl. auto. }
        { destruct (Pt i w (Running (mkJ t (group q) (group q))) W) as [A B]. unfold waiting in A at 2 4. unfold eager in B at 2 4. rewrite P in A, B. cbn in A, B. intros Y. specialize (R ltac:(lia)).
          rewrite E in R. pose proof (tasks_filter pre) as TF. unfold tasks_of in *. rewrite !total_app in *. simpl in *. rewrite T in R. simpl in R. lia. }
      * apply next_none in X as [F ->]. split; [intros x Hx; apply filter_In in Hx as [Hx _]; auto|].
        intros _. pose proof (tasks_filter (queues s)) as TF. rewrite (tasks_none _ F) in TF. lia.
    + destruct (mutex_free s); [|inversion H; subst; auto]. apply obind_ok in H as (qs & K & H). inversion H; subst. unfold loop_head. rewrite (Head i w W). cbn [put_worker note with_queues queues workers owed].
      assert (KQ : (forall q, In q qs -> comps q = []) /\ tasks_of qs = tasks_of (queues s)).
      { unfold complete in K. destruct (taskGroup j =? 0); [inversion K; subst; auto|]. destruct (get_queue (queues s) (taskGroup j)) as [q|]; [|discriminate].
        destruct (pending q); [discriminate|]. inversion K. split; [apply in_set; auto|apply tasks_set; reflexivity]. }
      destruct KQ as [K1 K2]. split; [exact K1|]. rewrite K2.
      destruct (Pt i w Holding W) as [A B]. unfold waiting in A at 2 4. unfold eager in B at 2 4. rewrite P in A, B. cbn in A, B. intros X. specialize (R ltac:(lia)). lia.
    + destruct (mutex_free s); inversion H; subst; auto. unfold loop_head. rewrite (Head i w W). cbn [put_worker with_idle queues workers owed]. split; [exact C|].
      destruct (Pt i w Holding W) as [A B]. unfold waiting in A at 2 4. unfold eager in B at 2 4. rewrite P in A, B. cbn in A, B. intros X. specialize (R ltac:(lia)). lia.
  - destruct (nth_error (workers s) i) as [w|] eqn:W; inversion H; subst; auto. cbn [with_workers queues workers owed]. split; [exact C|].
    unfold wake. destruct (waiting w) eqn:V; [|rewrite (upd_same _ _ _ W); exact R].
    destruct (Pt i w Woken W) as [A B]. rewrite V in A. cbn in A, B. unfold eager in B at 2. unfold waiting in V. destruct (place_of w); try discriminate. cbn in B. intros X. specialize (R ltac:(lia)). lia.
  - destruct (owed s) as [|o] eqn:O; [inversion H; subst; rewrite O; auto|]. destruct (existsb waiting (workers s)) eqn:E.
    + destruct (nth_error (workers s) i) as [w|] eqn:W; [|inversion H; subst; rewrite O; auto]. destruct (waiting w) eqn:V; inversion H; subst; [|rewrite O; auto].
      cbn [with_workers queues workers owed]. split; [exact C|]. unfold wake. rewrite V.
      destruct (Pt i w Woken W) as [A B]. rewrite V in A. cbn in A, B. unfold eager in B at 2. unfold waiting in V. destruct (place_of w); try discriminate. cbn in B. intros X. specialize (R ltac:(lia)). lia.
    + inversion H; subst. cbn [with_workers queues workers owed]. split; [exact C|]. intros X. apply (proj2 (existsb_count waiting (workers s))) in X. congruence.
  - destruct (mutex_free s); [|inversion H; subst; auto]. destruct (open_queue (queues s) (last_group s)) as [qs lg] eqn:O. inversion H; subst. cbn [queues workers owed].
    assert (K : qs <> [] /\ (forall q, In q qs -> comps q = []) /\ tasks_of qs = tasks_of (queues s)).
    { unfold open_queue in O. destruct (last_queue (queues s)) as [q|] eqn:L.
      - destruct (closed q); inversion O; subst.
        + split; [destruct (queues s); discriminate|]. split; [|unfold tasks_of; rewrite total_app; simpl; lia]. intros x Hx. apply in_app_iff in Hx as [Hx|[<-|[]]]; auto.
        + split; [destruct (queues s); [discriminate|congruence]|auto].
      - apply last_none in L. inversion O; subst. split; [discriminate|]. rewrite L. split; [|reflexivity]. intros x [<-|[]]. reflexivity. }
    destruct K as (K1 & K2 & K3). destruct (set_last_ne qs (add_task (next_id s)) K1) as (a & q & E & SE & _). rewrite SE. rewrite E in K2, K3. split.
    + intros x Hx. apply in_app_iff in Hx as [Hx|[<-|[]]]; [apply K2; apply in_app_iff; auto|]. cbn. apply K2. apply in_app_iff. simpl. auto.
    + intros X. specialize (R X). unfold tasks_of in *. rewrite total_app in *. simpl in *. rewrite app_length. simpl. lia.
  - congruence.
  - destruct (mutex_free s); [|inversion H; subst; auto]. destruct (g =? 0); [inversion H; subst; auto|]. destruct (get_queue (queues s) g) as [q|] eqn:G; inversion H; subst; auto.
    cbn [with_blocked with_queues queues workers owed]. split; [apply in_set; auto|rewrite tasks_set by reflexivity; exact R].
  - destruct (mutex_free s); inversion H; subst; auto. cbn. split; [tauto|intros; lia].
  - destruct (mutex_free s); inversion H; subst; auto.
  - exfalso. apply (N1 i). reflexivity.
  - inversion H; subst. cbn [with_workers queues workers owed]. split; [exact C|].
    assert (Z : forall ws, count waiting (map wake ws) = 0).
    { unfold count. induction ws as [|w ws IH]; simpl; auto. rewrite IH. unfold wake, waiting. destruct w as [[] c]; reflexivity. }
    rewrite Z. lia.
Qed.
Lemma run_ready : forall ls s s', ready_for s -> uncancelled s -> no_cancel ls -> ~ In AddCompletion ls -> run s ls = Ok s' -> ready_for s'.
Proof.
  induction ls as [|l ls IH]; cbn [run]; intros s s' B U N M H; [inversion H; subst; exact B|]. apply obind_ok in H as (s1 & H1 & H2).
  assert (X1 : forall i, l <> Cancel i) by (intros i ->; apply (N i); simpl; auto).
  eapply IH; [| | | |exact H2].
  - eapply step_ready; eauto. intros ->. apply M. simpl. auto.
  - exact (proj1 (step_unc s l s1 U X1 H1)).
  - intros i Hi. apply (N i). simpl. auto.
  - intros X. apply M. simpl. auto.
Qed.

(** ** Stopping *)
Definition stopping (s : pool) : Prop := forall w, In w (workers s) -> cancelled w = true /\ place_of w <> Waiting /\ place_of w <> Holding.
Lemma move_stopping s s' : stopping s -> move s s' -> stopping s'.
Proof.
  intros P (i & [H|H] & N); cbn [step] in H.
  - destruct (nth_error (workers s) i) as [w|] eqn:W; [|inversion H; congruence]. unfold worker_step in H.
    destruct (P w (nth_error_In _ _ W)) as (P1 & P2 & P3).
    assert (Q : forall s', workers s' = upd (workers s) i (mkW Stopped (cancelled w)) -> stopping s').
    { intros s1 E v Hv. rewrite E in Hv. destruct (upd_split _ (workers s) i (mkW Stopped (cancelled w)) w W) as (a & b & E1 & _ & U). rewrite U in Hv.
      apply in_app_iff in Hv as [Hv|[<-|Hv]]; [apply P; rewrite E1; apply in_app_iff; auto|cbn; repeat split; [exact P1|discriminate|discriminate]|apply P; rewrite E1; apply in_app_iff; simpl; auto]. }
    destruct (place_of w) as [| |j| | |] eqn:E; try congruence; try (inversion H; congruence).
    + destruct (mutex_free s); inversion H; subst; [|congruence]. apply Q. cbn. rewrite P1. reflexivity.
    + destruct (mutex_free s); [|inversion H; congruence]. apply obind_ok in H as (qs & K & H). inversion H; subst. apply Q. cbn. rewrite P1. reflexivity.
    + destruct (mutex_free s); inversion H; subst; [|congruence]. apply Q. cbn. rewrite P1. reflexivity.
  - destruct (owed s); [inversion H; congruence|]. destruct (existsb waiting (workers s)) eqn:E.
    + apply existsb_exists in E as (w & Hw & V). destruct (P w Hw) as (_ & X & _). unfold waiting in V. destruct (place_of w); congruence.
    + inversion H; subst. exact P.
Qed.
Lemma moves_stopping n s s' : moves n s s' -> stopping s -> stopping s'.
Proof. induction 1; auto. intros P. apply IHmoves. eapply move_stopping; eauto. Qed.
