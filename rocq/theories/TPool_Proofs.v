(** The invariant of the thread pool's queues and history. *)
Require Import Coq.Lists.List Coq.Bool.Bool Coq.Arith.Arith Coq.Sorting.Permutation Lia.
Require Import Verif.Base Verif.TPool_Model Verif.TPool_Spec.
Import ListNotations.

Definition groups (qs : list queue) : list nat := map group qs.
Record inv (qs : list queue) (lg nid : nat) (js : list job) (l : list event) : Prop := mkInv {
  i_lg : forall g, In g (groups qs) -> 1 <= g <= lg;
  i_nodup : NoDup (groups qs);
  i_pend : forall q, In q qs -> pending q = length (tasks q) + length (of_group (group q) js);
  i_run : forall j, In j js -> taskGroup j <> 0 -> In (taskGroup j) (groups qs) /\ from j = taskGroup j;
  i_task : forall g, added g l = started g l ++ queued g qs ++ removed g l;
  i_comp : forall g, addedC g l = startedC g l ++ queuedC g qs ++ removedC g l;
  i_perm : forall g, g <> 0 -> Permutation (started g l) (done g l ++ of_group g js);
  i_gone : forall g, lg < g -> added g l = [] /\ addedC g l = [];
  i_rem : forall g, In g (groups qs) -> removed g l = [] /\ removedC g l = [];
  i_closed : forall q, In q qs -> closed q = false -> comps q = [] /\ startedC (group q) l = [];
  i_pos : forall g, added g l <> [] \/ addedC g l <> [] -> 1 <= g;
  i_ids : NoDup (ids l) /\ Forall (fun t => t < nid) (ids l);
  i_hc : forall l1 c g l2, l = l1 ++ StartedC c g :: l2 -> forall t, In t (added g l) -> In t (done g l1);
  i_hw : forall l1 g l2, l = l1 ++ WaitReturned g :: l2 ->
         (forall t, In t (added g l1) -> In t (done g l1) \/ In t (removed g l1)) /\
         (forall c, In c (addedC g l1) -> In c (startedC g l1) \/ In c (removedC g l1))
}.

Lemma snoc_split {A} (l : list A) e l1 x l2 : l ++ [e] = l1 ++ x :: l2 -> (l2 = [] /\ l = l1 /\ e = x) \/ exists r, l2 = r ++ [e] /\ l = l1 ++ x :: r.
Proof.
  destruct l2 as [|y l2'] using rev_ind.
  - intros H. apply app_inj_tail in H as [H1 H2]. left. auto.
  - intros H. change (l1 ++ x :: l2' ++ [y]) with (l1 ++ (x :: l2') ++ [y]) in H. rewrite app_assoc in H.
    apply app_inj_tail in H as [H1 H2]. right. exists l2'. subst. auto.
Qed.
Lemma added_app g a b : added g (a ++ b) = added g a ++ added g b. Proof. apply flat_map_app. Qed.
Lemma started_app g a b : started g (a ++ b) = started g a ++ started g b. Proof. apply flat_map_app. Qed.
Lemma done_app g a b : done g (a ++ b) = done g a ++ done g b. Proof. apply flat_map_app. Qed.
Lemma addedC_app g a b : addedC g (a ++ b) = addedC g a ++ addedC g b. Proof. apply flat_map_app. Qed.
Lemma startedC_app g a b : startedC g (a ++ b) = startedC g a ++ startedC g b. Proof. apply flat_map_app. Qed.
Lemma removed_app g a b : removed g (a ++ b) = removed g a ++ removed g b. Proof. apply flat_map_app. Qed.
Lemma removedC_app g a b : removedC g (a ++ b) = removedC g a ++ removedC g b. Proof. apply flat_map_app. Qed.
Lemma queued_app g a b : queued g (a ++ b) = queued g a ++ queued g b. Proof. apply flat_map_app. Qed.
Lemma queuedC_app g a b : queuedC g (a ++ b) = queuedC g a ++ queuedC g b. Proof. apply flat_map_app. Qed.
Lemma ids_app a b : ids (a ++ b) = ids a ++ ids b. Proof. apply flat_map_app. Qed.
Lemma groups_app a b : groups (a ++ b) = groups a ++ groups b. Proof. apply map_app. Qed.
Lemma queued_cons g q r : queued g (q :: r) = (if group q =? g then tasks q else []) ++ queued g r. Proof. reflexivity. Qed.
Lemma queuedC_cons g q r : queuedC g (q :: r) = (if group q =? g then comps q else []) ++ queuedC g r. Proof. reflexivity. Qed.
Lemma of_group_cons g j js : of_group g (j :: js) = (if taskGroup j =? g then [jid j] else []) ++ of_group g js.
Proof. unfold of_group. simpl. destruct (taskGroup j =? g); reflexivity. Qed.
Lemma of_group_perm g js js' : Permutation js js' -> Permutation (of_group g js) (of_group g js').
Proof. intros H. unfold of_group. apply Permutation_map. induction H; simpl; auto. destruct (taskGroup x =? g); auto. destruct (taskGroup y =? g), (taskGroup x =? g); auto. apply perm_swap. eapply Permutation_trans; eauto. Qed.
Lemma of_group_none g js : of_group g js = [] -> forall j, In j js -> taskGroup j <> g.
Proof.
  unfold of_group. intros H j Hj E. apply map_eq_nil in H. assert (X : In j (filter (fun j => taskGroup j =? g) js)) by (apply filter_In; split; [exact Hj|apply Nat.eqb_eq; exact E]).
  rewrite H in X. exact X.
Qed.
(** The contribution of a single event. *)
Ltac one := repeat match goal with
  | |- context [added ?g [?e]] => let v := eval cbv [added flat_map] in (added g [e]) in change (added g [e]) with v
  | |- context [started ?g [?e]] => let v := eval cbv [started flat_map] in (started g [e]) in change (started g [e]) with v
  | |- context [done ?g [?e]] => let v := eval cbv [done flat_map] in (done g [e]) in change (done g [e]) with v
  | |- context [addedC ?g [?e]] => let v := eval cbv [addedC flat_map] in (addedC g [e]) in change (addedC g [e]) with v
  | |- context [startedC ?g [?e]] => let v := eval cbv [startedC flat_map] in (startedC g [e]) in change (startedC g [e]) with v
  | |- context [removed ?g [?e]] => let v := eval cbv [removed flat_map] in (removed g [e]) in change (removed g [e]) with v
  | |- context [removedC ?g [?e]] => let v := eval cbv [removedC flat_map] in (removedC g [e]) in change (removedC g [e]) with v
  | |- context [ids [?e]] => let v := eval cbv [ids flat_map] in (ids [e]) in change (ids [e]) with v
  end.
Ltac oneH H := repeat match type of H with
  | context [added ?g [?e]] => let v := eval cbv [added flat_map] in (added g [e]) in change (added g [e]) with v in H
  | context [started ?g [?e]] => let v := eval cbv [started flat_map] in (started g [e]) in change (started g [e]) with v in H
  | context [done ?g [?e]] => let v := eval cbv [done flat_map] in (done g [e]) in change (done g [e]) with v in H
  | context [addedC ?g [?e]] => let v := eval cbv [addedC flat_map] in (addedC g [e]) in change (addedC g [e]) with v in H
  | context [startedC ?g [?e]] => let v := eval cbv [startedC flat_map] in (startedC g [e]) in change (startedC g [e]) with v in H
  | context [removed ?g [?e]] => let v := eval cbv [removed flat_map] in (removed g [e]) in change (removed g [e]) with v in H
  | context [removedC ?g [?e]] => let v := eval cbv [removedC flat_map] in (removedC g [e]) in change (removedC g [e]) with v in H
  | context [ids [?e]] => let v := eval cbv [ids flat_map] in (ids [e]) in change (ids [e]) with v in H
  end.
Ltac ev := rewrite ?added_app, ?started_app, ?done_app, ?addedC_app, ?startedC_app, ?removed_app, ?removedC_app, ?ids_app; one; rewrite ?app_nil_r.
Ltac evh H := rewrite ?added_app, ?started_app, ?done_app, ?addedC_app, ?startedC_app, ?removed_app, ?removedC_app, ?ids_app in H; oneH H; rewrite ?app_nil_r in H.

Lemma queued_out g qs : ~ In g (groups qs) -> queued g qs = [] /\ queuedC g qs = [].
Proof.
  induction qs as [|q qs IH]; simpl; intros H; auto. destruct (group q =? g) eqn:E; [apply Nat.eqb_eq in E; tauto|]. apply IH. tauto.
Qed.
(** ** Taking the next task *)
Definition no_work (q : queue) : Prop := tasks q = [] /\ (pending q = 0 -> comps q = []).
Definition busy (q : queue) : bool := negb (pending q =? 0).
Lemma next_none : forall qs qs', next_task qs = (qs', None) -> Forall no_work qs /\ qs' = filter busy qs.
Proof.
  induction qs as [|q r IH]; simpl; intros qs' H; [inversion H; auto|]. unfold busy at 1.
  destruct (tasks q) eqn:T; [|discriminate]. destruct (pending q =? 0) eqn:P; cbn [negb].
  - destruct (comps q) eqn:C; [|discriminate]. destruct (IH _ H) as [F ->]. split; [constructor; [split; auto|exact F]|reflexivity].
  - destruct (next_task r) as [r' j]. inversion H; subst. destruct (IH r' eq_refl) as [F ->]. split; [constructor; [split; [exact T|]|exact F]|reflexivity].
    intros Z. rewrite Z in P. discriminate.
Qed.
Lemma next_some : forall qs qs' j, next_task qs = (qs', Some j) ->
  exists pre q post q', qs = pre ++ q :: post /\ Forall no_work pre /\ qs' = filter busy pre ++ q' :: post /\
    ((exists t ts, tasks q = t :: ts /\ q' = mkQ (group q) ts (comps q) (pending q) (closed q) /\ j = mkJ t (group q) (group q)) \/
     (exists c cs, tasks q = [] /\ pending q = 0 /\ comps q = c :: cs /\ q' = mkQ (group q) [] cs 0 (closed q) /\ j = mkJ c 0 (group q))).
Proof.
  induction qs as [|q r IH]; simpl; intros qs' j H; [discriminate|].
  destruct (tasks q) eqn:T.
  - destruct (pending q =? 0) eqn:P.
    + destruct (comps q) eqn:C.
      * destruct (IH _ _ H) as (pre & x & post & x' & -> & F & -> & D). exists (q :: pre), x, post, x'. split; [reflexivity|]. split; [|split; [|exact D]].
        { constructor; [split; auto|exact F]. }
        { simpl. unfold busy at 2. rewrite P. reflexivity. }
      * inversion H; subst. apply Nat.eqb_eq in P. exists [], q, r, (mkQ (group q) [] l (pending q) (closed q)). split; [reflexivity|]. split; [constructor|]. split; [reflexivity|]. right. exists n, l. rewrite P. repeat split; auto.
    + destruct (next_task r) as [r' j'] eqn:N. inversion H; subst. destruct (IH r' j eq_refl) as (pre & x & post & x' & -> & F & -> & D).
      exists (q :: pre), x, post, x'. split; [reflexivity|]. split; [|split; [|exact D]].
      { constructor; [split; [exact T|intros Z; rewrite Z in P; discriminate]|exact F]. }
      { simpl. unfold busy at 2. rewrite P. reflexivity. }
  - inversion H; subst. exists [], q, r, (mkQ (group q) l (comps q) (pending q) (closed q)). split; [reflexivity|]. split; [constructor|]. split; [reflexivity|]. left. exists n, l. auto.
Qed.
(** Freeing queues that are done. *)
Lemma queued_filter g qs : Forall no_work qs -> queued g (filter busy qs) = [] /\ queued g qs = [] /\ queuedC g (filter busy qs) = queuedC g qs.
Proof.
  induction 1 as [|q qs [T C] F IH]; [auto|]. destruct IH as (IH1 & IH2 & IH3).
  assert (E : filter busy (q :: qs) = if pending q =? 0 then filter busy qs else q :: filter busy qs) by (simpl; unfold busy at 1; destruct (pending q =? 0); reflexivity).
  rewrite E, queued_cons, queuedC_cons, T. destruct (pending q =? 0) eqn:P.
  - apply Nat.eqb_eq in P. rewrite (C P). destruct (group q =? g); simpl; auto.
  - rewrite queued_cons, queuedC_cons, T. rewrite IH1, IH2, IH3. destruct (group q =? g); auto.
Qed.
Lemma in_groups_filter qs g : In g (groups (filter busy qs)) -> In g (groups qs).
Proof. unfold groups. intros H. apply in_map_iff in H as (q & E & H). apply filter_In in H as [H _]. apply in_map_iff. eauto. Qed.
Lemma nodup_filter_pre pre rest : NoDup (groups (pre ++ rest)) -> NoDup (groups (filter busy pre ++ rest)).
Proof.
  induction pre as [|q pre IH]; simpl; intros H; auto. inversion H; subst. unfold busy at 1. destruct (pending q =? 0); cbn [negb]; auto.
  simpl. constructor; auto. intros X. apply H2. rewrite groups_app in *. apply in_app_iff in X. apply in_app_iff. destruct X; [left; apply in_groups_filter; auto|auto].
Qed.

Lemma inv_js qs lg nid js js' l : Permutation js js' -> inv qs lg nid js l -> inv qs lg nid js' l.
Proof.
  intros P I. destruct I. constructor; auto.
  - intros q Hq. rewrite i_pend0 by exact Hq. f_equal. apply Permutation_length. apply of_group_perm. exact P.
  - intros j Hj. apply i_run0. eapply Permutation_in; [apply Permutation_sym; exact P|exact Hj].
  - intros g Hg. eapply Permutation_trans; [apply i_perm0; exact Hg|]. apply Permutation_app_head. apply of_group_perm. exact P.
Qed.
(** Freeing the finished queues before [rest]. *)
Lemma inv_free pre rest lg nid js l : Forall no_work pre -> inv (pre ++ rest) lg nid js l -> inv (filter busy pre ++ rest) lg nid js l.
Proof.
  intros F I. destruct I.
  assert (G : forall g, In g (groups (filter busy pre ++ rest)) -> In g (groups (pre ++ rest))).
  { intros g. rewrite !groups_app, !in_app_iff. intros [H|H]; auto. left. apply in_groups_filter. exact H. }
  assert (GQ : forall q, In q (filter busy pre ++ rest) -> In q (pre ++ rest)).
  { intros q. rewrite !in_app_iff. intros [H|H]; auto. apply filter_In in H as [H _]. auto. }
  constructor; auto.
  - apply nodup_filter_pre. exact i_nodup0.
  - intros j Hj Hz. destruct (i_run0 j Hj Hz) as [X Y]. split; [|exact Y].
    rewrite groups_app in *. apply in_app_iff in X. apply in_app_iff. destruct X as [X|X]; [|auto]. left.
    unfold groups in *. apply in_map_iff in X as (q & E & Hq). apply in_map_iff. exists q. split; [exact E|]. apply filter_In. split; [exact Hq|].
    unfold busy. destruct (pending q =? 0) eqn:P; [|reflexivity]. apply Nat.eqb_eq in P.
    pose proof (i_pend0 q ltac:(apply in_app_iff; auto)) as Q. rewrite P in Q.
    assert (Z : of_group (group q) js = []) by (apply length_zero_iff_nil; lia).
    exfalso. eapply (of_group_none _ _ Z j Hj). auto.
  - intros g. rewrite i_task0. rewrite !queued_app. destruct (queued_filter g pre F) as (A & B & C). rewrite A, B. reflexivity.
  - intros g. rewrite i_comp0. rewrite !queuedC_app. destruct (queued_filter g pre F) as (A & B & C). rewrite C. reflexivity.
Qed.
(** The first queue with work gives a task. *)
Lemma nodup_mid (pre : list queue) q post : NoDup (groups (pre ++ q :: post)) -> ~ In (group q) (groups pre) /\ ~ In (group q) (groups post).
Proof.
  rewrite groups_app. simpl. intros H. apply NoDup_remove_2 in H. rewrite in_app_iff in H. tauto.
Qed.
Lemma in_mid (pre : list queue) q post q' x : In x (pre ++ q' :: post) -> x = q' \/ In x (pre ++ q :: post).
Proof. rewrite !in_app_iff. simpl. intuition. Qed.
Lemma groups_mid (pre : list queue) q post q' : group q' = group q -> groups (pre ++ q' :: post) = groups (pre ++ q :: post).
Proof. intros E. rewrite !groups_app. simpl. rewrite E. reflexivity. Qed.

Lemma inv_start pre q post lg nid js l t ts :
  tasks q = t :: ts -> (forall g, queued g pre = []) -> inv (pre ++ q :: post) lg nid js l ->
  inv (pre ++ mkQ (group q) ts (comps q) (pending q) (closed q) :: post) lg nid (mkJ t (group q) (group q) :: js) (l ++ [Started t (group q)]).
Proof.
  intros T PE I. set (q' := mkQ (group q) ts (comps q) (pending q) (closed q)).
  assert (GE : groups (pre ++ q' :: post) = groups (pre ++ q :: post)) by (apply groups_mid; reflexivity).
  destruct (nodup_mid _ _ _ (i_nodup _ _ _ _ _ I)) as [N1 N2].
  assert (Hq : In q (pre ++ q :: post)) by (apply in_app_iff; simpl; auto).
  assert (Hg : In (group q) (groups (pre ++ q :: post))) by (unfold groups; apply in_map; exact Hq).
  destruct I. constructor; rewrite ?GE; auto.
  - intros x Hx. rewrite of_group_cons. cbn [taskGroup jid].
    destruct (in_mid pre q post q' x Hx) as [->|Hx'].
    + unfold q'. cbn [group tasks pending]. rewrite Nat.eqb_refl. rewrite (i_pend0 q Hq), T. simpl. lia.
    + destruct (group q =? group x) eqn:E; [|apply i_pend0; exact Hx'].
      apply Nat.eqb_eq in E. rewrite in_app_iff in Hx. destruct Hx as [Hx|[<-|Hx]].
      * exfalso. apply N1. rewrite E. unfold groups. apply in_map. exact Hx.
      * unfold q'. cbn [group tasks pending]. rewrite (i_pend0 q Hq), T. simpl. lia.
      * exfalso. apply N2. rewrite E. unfold groups. apply in_map. exact Hx.
  - intros j [<-|Hj] Hz; cbn [taskGroup from] in *; [split; auto|]. apply i_run0; auto.
  - intros g. ev. rewrite i_task0, !queued_app, PE, !queued_cons. unfold q'. cbn [group tasks app]. rewrite T.
    destruct (group q =? g); rewrite ?app_nil_r; [|reflexivity]. rewrite <- !app_assoc. reflexivity.
  - intros g. ev. rewrite i_comp0, !queuedC_app, !queuedC_cons. reflexivity.
  - intros g Z. ev. rewrite of_group_cons. cbn [taskGroup jid].
    destruct (group q =? g); [|rewrite app_nil_r; apply i_perm0; exact Z].
    eapply Permutation_trans; [apply Permutation_app_tail; apply i_perm0; exact Z|]. rewrite <- app_assoc. apply Permutation_app_head. apply Permutation_app_comm.
  - intros g Z. ev. apply i_gone0. exact Z.
  - intros g Z. ev. apply i_rem0. exact Z.
  - intros x Hx Hc. ev. destruct (in_mid pre q post q' x Hx) as [->|Hx']; [|apply i_closed0; auto]. apply (i_closed0 q Hq Hc).
  - intros g. ev. apply i_pos0.
  - ev. exact i_ids0.
  - intros l1 c g l2 E u Hu. evh Hu. apply snoc_split in E as [(_ & _ & E)|(r & -> & E)]; [discriminate|]. eapply i_hc0; eauto.
  - intros l1 g l2 E. apply snoc_split in E as [(_ & _ & E)|(r & -> & E)]; [discriminate|]. eapply i_hw0; eauto.
Qed.
Lemma queuedC_one pre q post : NoDup (groups (pre ++ q :: post)) -> forall g, queuedC g (pre ++ q :: post) = if group q =? g then comps q else queuedC g (pre ++ post).
Proof.
  intros N g. destruct (nodup_mid _ _ _ N) as [N1 N2]. rewrite queuedC_app, queuedC_cons, (queuedC_app g pre post).
  destruct (group q =? g) eqn:E; [|reflexivity]. apply Nat.eqb_eq in E. subst g.
  rewrite (proj2 (queued_out _ _ N1)), (proj2 (queued_out _ _ N2)), app_nil_r. reflexivity.
Qed.
Lemma queued_one pre q post : NoDup (groups (pre ++ q :: post)) -> forall g, queued g (pre ++ q :: post) = if group q =? g then tasks q else queued g (pre ++ post).
Proof.
  intros N g. destruct (nodup_mid _ _ _ N) as [N1 N2]. rewrite queued_app, queued_cons, (queued_app g pre post).
  destruct (group q =? g) eqn:E; [|reflexivity]. apply Nat.eqb_eq in E. subst g.
  rewrite (proj1 (queued_out _ _ N1)), (proj1 (queued_out _ _ N2)), app_nil_r. reflexivity.
Qed.
(** In a list of queues of different groups. *)
Lemma in_other pre q post q' x : NoDup (groups (pre ++ q :: post)) -> In x (pre ++ q' :: post) -> x = q' \/ (In x (pre ++ q :: post) /\ group x <> group q).
Proof.
  intros N H. destruct (nodup_mid _ _ _ N) as [N1 N2]. rewrite in_app_iff in *. simpl in *. destruct H as [H|[H|H]]; auto; right; (split; [auto|]); intros E.
  - apply N1. rewrite <- E. unfold groups. apply in_map. exact H.
  - apply N2. rewrite <- E. unfold groups. apply in_map. exact H.
Qed.
Lemma inv_startC pre q post lg nid js l c cs :
  tasks q = [] -> pending q = 0 -> comps q = c :: cs -> inv (pre ++ q :: post) lg nid js l ->
  inv (pre ++ mkQ (group q) [] cs 0 (closed q) :: post) lg nid (mkJ c 0 (group q) :: js) (l ++ [StartedC c (group q)]).
Proof.
  intros T P C I. set (q' := mkQ (group q) [] cs 0 (closed q)).
  assert (GE : groups (pre ++ q' :: post) = groups (pre ++ q :: post)) by (apply groups_mid; reflexivity).
  assert (ND := i_nodup _ _ _ _ _ I). assert (ND' : NoDup (groups (pre ++ q' :: post))) by (rewrite GE; exact ND).
  assert (Hq : In q (pre ++ q :: post)) by (apply in_app_iff; simpl; auto).
  assert (Hg : In (group q) (groups (pre ++ q :: post))) by (unfold groups; apply in_map; exact Hq).
  destruct I. assert (G1 := i_lg0 _ Hg).
  assert (ZR : of_group (group q) js = []) by (apply length_zero_iff_nil; pose proof (i_pend0 q Hq) as Q; rewrite P, T in Q; simpl in Q; lia).
  constructor; rewrite ?GE; auto.
  - intros x Hx. rewrite of_group_cons. cbn [taskGroup jid].
    destruct (in_other pre q post q' x ND Hx) as [->|[Hx' Hn]].
    + unfold q'. cbn [group tasks pending]. rewrite ZR. destruct (0 =? group q) eqn:E; [apply Nat.eqb_eq in E; lia|reflexivity].
    + destruct (0 =? group x) eqn:E; [|apply i_pend0; exact Hx']. apply Nat.eqb_eq in E. pose proof (i_lg0 (group x) ltac:(unfold groups; apply in_map; exact Hx')). lia.
  - intros j [<-|Hj] Hz; cbn [taskGroup from] in *; [tauto|]. apply i_run0; auto.
  - intros g. ev. rewrite i_task0. f_equal. f_equal. rewrite !queued_app, !queued_cons. unfold q'. cbn [group tasks]. rewrite T. reflexivity.
  - intros g. ev. rewrite i_comp0, (queuedC_one _ _ _ ND), (queuedC_one _ _ _ ND'). unfold q'. cbn [group comps]. rewrite C.
    destruct (group q =? g); rewrite ?app_nil_r; [|reflexivity]. rewrite <- !app_assoc. reflexivity.
  - intros g Z. ev. rewrite of_group_cons. cbn [taskGroup jid]. destruct (0 =? g) eqn:E; [apply Nat.eqb_eq in E; lia|]. apply i_perm0. exact Z.
  - intros g Z. ev. apply i_gone0. exact Z.
  - intros g Z. ev. apply i_rem0. exact Z.
  - intros x Hx Hc. ev. destruct (in_other pre q post q' x ND Hx) as [->|[Hx' Hn]].
    + exfalso. pose proof (proj1 (i_closed0 q Hq Hc)) as X. rewrite C in X. discriminate.
    + destruct (group q =? group x) eqn:E; [apply Nat.eqb_eq in E; congruence|]. rewrite app_nil_r. apply i_closed0; auto.
  - intros g. ev. apply i_pos0.
  - ev. exact i_ids0.
  - intros l1 d g l2 E u Hu. evh Hu. apply snoc_split in E as [(_ & <- & E)|(r & -> & E)]; [|eapply i_hc0; eauto].
    inversion E; subst. rewrite i_task0, (queued_one _ _ _ ND), Nat.eqb_refl, T, (proj1 (i_rem0 _ Hg)), !app_nil_r in Hu.
    eapply Permutation_in in Hu; [|apply i_perm0; lia]. rewrite ZR, app_nil_r in Hu. exact Hu.
  - intros l1 g l2 E. apply snoc_split in E as [(_ & _ & E)|(r & -> & E)]; [discriminate|]. eapply i_hw0; eauto.
Qed.
Lemma get_queue_split qs g q : get_queue qs g = Some q -> exists pre post, qs = pre ++ q :: post /\ group q = g.
Proof.
  unfold get_queue. induction qs as [|x qs IH]; simpl; [discriminate|]. destruct (group x =? g) eqn:E.
  - intros H. inversion H; subst. exists [], qs. split; [reflexivity|apply Nat.eqb_eq; exact E].
  - intros H. destruct (IH H) as (pre & post & -> & G). exists (x :: pre), post. auto.
Qed.
Lemma get_queue_none qs g : get_queue qs g = None -> ~ In g (groups qs).
Proof.
  unfold get_queue. induction qs as [|x qs IH]; simpl; auto. destruct (group x =? g) eqn:E; [discriminate|]. apply Nat.eqb_neq in E. intros H [A|A]; [congruence|]. apply (IH H A).
Qed.
Lemma set_queue_split pre q post f : NoDup (groups (pre ++ q :: post)) -> set_queue (pre ++ q :: post) (group q) f = pre ++ f q :: post.
Proof.
  intros N. destruct (nodup_mid _ _ _ N) as [N1 N2]. unfold set_queue. rewrite map_app. simpl. rewrite Nat.eqb_refl.
  assert (X : forall l, ~ In (group q) (groups l) -> map (fun q0 => if group q0 =? group q then f q0 else q0) l = l).
  { induction l as [|x l IH]; simpl; intros H; auto. destruct (group x =? group q) eqn:E; [apply Nat.eqb_eq in E; tauto|]. rewrite IH by tauto. reflexivity. }
  rewrite !X by assumption. reflexivity.
Qed.
Lemma inv_done pre q post lg nid js l t f :
  inv (pre ++ q :: post) lg nid (mkJ t (group q) f :: js) l ->
  pending q <> 0 /\
  inv (pre ++ mkQ (group q) (tasks q) (comps q) (pred (pending q)) (closed q) :: post) lg nid js (l ++ [Done t f]).
Proof.
  intros I. set (q' := mkQ (group q) (tasks q) (comps q) (pred (pending q)) (closed q)).
  assert (GE : groups (pre ++ q' :: post) = groups (pre ++ q :: post)) by (apply groups_mid; reflexivity).
  assert (ND := i_nodup _ _ _ _ _ I). assert (ND' : NoDup (groups (pre ++ q' :: post))) by (rewrite GE; exact ND).
  assert (Hq : In q (pre ++ q :: post)) by (apply in_app_iff; simpl; auto).
  assert (Hg : In (group q) (groups (pre ++ q :: post))) by (unfold groups; apply in_map; exact Hq).
  destruct I. assert (G1 := i_lg0 _ Hg).
  assert (F : f = group q) by (apply (i_run0 (mkJ t (group q) f)); simpl; [auto|lia]). subst f.
  pose proof (i_pend0 q Hq) as Q. rewrite of_group_cons in Q. cbn [taskGroup jid] in Q. rewrite Nat.eqb_refl in Q. simpl in Q.
  split; [lia|]. constructor; rewrite ?GE; auto.
  - intros x Hx. destruct (in_other pre q post q' x ND Hx) as [->|[Hx' Hn]].
    + unfold q'. cbn [group tasks pending]. lia.
    + pose proof (i_pend0 x Hx') as R. rewrite of_group_cons in R. cbn [taskGroup jid] in R. destruct (group q =? group x) eqn:E; [apply Nat.eqb_eq in E; congruence|]. exact R.
  - intros j Hj Hz. apply i_run0; simpl; auto.
  - intros g. ev. rewrite i_task0, (queued_one _ _ _ ND), (queued_one _ _ _ ND'). reflexivity.
  - intros g. ev. rewrite i_comp0, (queuedC_one _ _ _ ND), (queuedC_one _ _ _ ND'). reflexivity.
  - intros g Z. ev. eapply Permutation_trans; [apply i_perm0; exact Z|]. rewrite of_group_cons. cbn [taskGroup jid].
    destruct (group q =? g); rewrite ?app_nil_r; [|apply Permutation_refl]. rewrite <- app_assoc. apply Permutation_refl.
  - intros g Z. ev. apply i_gone0. exact Z.
  - intros g Z. ev. apply i_rem0. exact Z.
  - intros x Hx Hc. ev. destruct (in_other pre q post q' x ND Hx) as [->|[Hx' Hn]]; [apply (i_closed0 q Hq Hc)|apply i_closed0; auto].
  - intros g. ev. apply i_pos0.
  - ev. exact i_ids0.
  - intros l1 d g l2 E u Hu. evh Hu. apply snoc_split in E as [(_ & _ & E)|(r & -> & E)]; [discriminate|]. eapply i_hc0; eauto.
  - intros l1 g l2 E. apply snoc_split in E as [(_ & _ & E)|(r & -> & E)]; [discriminate|]. eapply i_hw0; eauto.
Qed.
Lemma NoDup_app_snoc {A} (l : list A) x : NoDup l -> ~ In x l -> NoDup (l ++ [x]).
Proof.
  intros N H. apply NoDup_Add with (a := x) (l := l); [|auto]. rewrite <- (app_nil_r l) at 1. apply Add_app.
Qed.
(** Events that change nothing. *)
Definition plain (e : event) : Prop := match e with DoneC _ _ | Idle _ => True | _ => False end.
Lemma inv_plain qs lg nid js l e : plain e -> inv qs lg nid js l -> inv qs lg nid js (l ++ [e]).
Proof.
  intros P I. destruct I. destruct e; try contradiction; constructor; auto.
  1-8, 11-18: intros; try match goal with H : _ \/ _ |- _ => evh H end; ev; auto.
  1, 3: intros l1 d h l2 E u Hu; evh Hu; apply snoc_split in E as [(_ & _ & E)|(r & -> & E)]; [discriminate|]; eapply i_hc0; eauto.
  all: intros l1 h l2 E; apply snoc_split in E as [(_ & _ & E)|(r & -> & E)]; [discriminate|]; eapply i_hw0; eauto.
Qed.
Lemma inv_doneC qs lg nid js l j : taskGroup j = 0 -> inv qs lg nid (j :: js) l -> inv qs lg nid js l.
Proof.
  intros Z I. destruct I.
  assert (X : forall g, g <> 0 -> of_group g (j :: js) = of_group g js).
  { intros g Hg. rewrite of_group_cons. rewrite Z. destruct (0 =? g) eqn:E; [apply Nat.eqb_eq in E; lia|reflexivity]. }
  constructor; auto.
  - intros q Hq. rewrite (i_pend0 q Hq), X; [reflexivity|]. pose proof (i_lg0 (group q) ltac:(unfold groups; apply in_map; exact Hq)). lia.
  - intros k Hk. apply i_run0. simpl. auto.
  - intros g Hg. rewrite <- X by exact Hg. apply i_perm0. exact Hg.
Qed.
Lemma ids_snoc l nid : NoDup (ids l) /\ Forall (fun t => t < nid) (ids l) -> NoDup (ids l ++ [nid]) /\ Forall (fun t => t < S nid) (ids l ++ [nid]).
Proof.
  intros [A B]. split.
  - apply NoDup_app_snoc; auto. intros X. rewrite Forall_forall in B. specialize (B _ X). simpl in B. lia.
  - apply Forall_app. split; [eapply Forall_impl; [|exact B]; simpl; lia|constructor; [lia|constructor]].
Qed.
Lemma inv_ran qs lg nid js l : inv qs lg nid js l -> inv qs lg (S nid) js (l ++ [RanNow nid]).
Proof.
  intros I. destruct I. constructor; auto.
  1-7: intros; try match goal with H : _ \/ _ |- _ => evh H end; ev; auto.
  - ev. apply ids_snoc. exact i_ids0.
  - intros l1 d h l2 E u Hu; evh Hu; apply snoc_split in E as [(_ & _ & E)|(r & -> & E)]; [discriminate|]; eapply i_hc0; eauto.
  - intros l1 h l2 E; apply snoc_split in E as [(_ & _ & E)|(r & -> & E)]; [discriminate|]; eapply i_hw0; eauto.
Qed.
Lemma last_split qs q : last_queue qs = Some q -> exists a, qs = a ++ [q].
Proof.
  induction qs as [|x qs IH]; simpl; [discriminate|]. destruct qs as [|y qs].
  - intros H. inversion H. exists []. reflexivity.
  - intros H. destruct (IH H) as (a & E). exists (x :: a). rewrite E. reflexivity.
Qed.
Lemma last_none qs : last_queue qs = None -> qs = [].
Proof. induction qs as [|x [|y qs] IH]; simpl; auto; [discriminate|]. intros H. specialize (IH H). discriminate. Qed.
Lemma last_snoc a q : last_queue (a ++ [q]) = Some q.
Proof. induction a as [|x a IH]; simpl; auto. rewrite IH. destruct (a ++ [q]) eqn:E; [destruct a; discriminate|reflexivity]. Qed.
Lemma set_last_snoc a q f : set_last (a ++ [q]) f = a ++ [f q].
Proof. induction a as [|x a IH]; simpl; auto. rewrite IH. destruct (a ++ [q]) eqn:E; [destruct a; discriminate|reflexivity]. Qed.
Lemma set_last_ne qs f : qs <> [] -> exists a q, qs = a ++ [q] /\ set_last qs f = a ++ [f q] /\ group_of_last qs = group q.
Proof.
  intros H. destruct (last_queue qs) as [q|] eqn:L; [|apply last_none in L; contradiction].
  destruct (last_split _ _ L) as (a & E). exists a, q. unfold group_of_last. rewrite L. rewrite E. rewrite set_last_snoc. auto.
Qed.
(** A new queue. *)
Lemma inv_new qs lg nid js l : inv qs lg nid js l -> inv (qs ++ [new_queue (S lg)]) (S lg) nid js l.
Proof.
  intros I. destruct I.
  assert (G : forall q, In q (qs ++ [new_queue (S lg)]) -> In q qs \/ q = new_queue (S lg)).
  { intros q H. rewrite in_app_iff in H. simpl in H. intuition. }
  assert (OG : of_group (S lg) js = []).
  { destruct (of_group (S lg) js) eqn:E; [reflexivity|]. exfalso.
    assert (X : In n (of_group (S lg) js)) by (rewrite E; simpl; auto). unfold of_group in X. apply in_map_iff in X as (j & _ & X). apply filter_In in X as [X Y]. apply Nat.eqb_eq in Y.
    destruct (i_run0 j X ltac:(lia)) as [Z _]. apply i_lg0 in Z. lia. }
  constructor; auto.
  - intros g. rewrite groups_app, in_app_iff. simpl. intros [H|[<-|[]]]; [apply i_lg0 in H; lia|lia].
  - rewrite groups_app. apply NoDup_app_snoc; auto. intros H. apply i_lg0 in H. simpl in H. lia.
  - intros q Hq. destruct (G q Hq) as [H| ->]; [apply i_pend0; exact H|]. simpl. rewrite OG. reflexivity.
  - intros j Hj Hz. destruct (i_run0 j Hj Hz) as [A B]. split; auto. rewrite groups_app, in_app_iff. auto.
  - intros g. rewrite queued_app, queued_cons. replace (if group (new_queue (S lg)) =? g then _ else _) with (@nil nat) by (destruct (group (new_queue (S lg)) =? g); reflexivity). simpl. rewrite app_nil_r. apply i_task0.
  - intros g. rewrite queuedC_app, queuedC_cons. replace (if group (new_queue (S lg)) =? g then _ else _) with (@nil nat) by (destruct (group (new_queue (S lg)) =? g); reflexivity). simpl. rewrite app_nil_r. apply i_comp0.
  - intros g Hg. apply i_gone0. lia.
  - intros g. rewrite groups_app, in_app_iff. simpl. intros [H|[<-|[]]]; [apply i_rem0; exact H|].
    destruct (i_gone0 (S lg) ltac:(lia)) as [A B]. pose proof (i_task0 (S lg)) as C. pose proof (i_comp0 (S lg)) as D. rewrite A in C. rewrite B in D.
    symmetry in C, D. apply app_eq_nil in C as [_ C]. apply app_eq_nil in C as [_ C]. apply app_eq_nil in D as [_ D]. apply app_eq_nil in D as [_ D]. auto.
  - intros q Hq Hc. destruct (G q Hq) as [H| ->]; [apply i_closed0; auto|]. split; [reflexivity|]. simpl.
    destruct (i_gone0 (S lg) ltac:(lia)) as [A B]. pose proof (i_comp0 (S lg)) as D. rewrite B in D. symmetry in D. apply app_eq_nil in D as [D _]. exact D.
Qed.
Lemma inv_add a q lg nid js l : closed q = false -> inv (a ++ [q]) lg nid js l -> inv (a ++ [add_task nid q]) lg (S nid) js (l ++ [Added nid (group q)]).
Proof.
  intros CL I. set (q' := add_task nid q).
  assert (GE : groups (a ++ [q']) = groups (a ++ [q])) by (apply groups_mid; reflexivity).
  assert (ND := i_nodup _ _ _ _ _ I). assert (ND' : NoDup (groups (a ++ [q']))) by (rewrite GE; exact ND).
  assert (Hq : In q (a ++ [q])) by (apply in_app_iff; simpl; auto).
  assert (Hg : In (group q) (groups (a ++ [q]))) by (unfold groups; apply in_map; exact Hq).
  destruct I. assert (G1 := i_lg0 _ Hg). destruct (i_rem0 _ Hg) as [R1 R2]. destruct (i_closed0 q Hq CL) as [C1 C2].
  constructor; rewrite ?GE; auto.
  - intros x Hx. destruct (in_other a q [] q' x ND Hx) as [->|[Hx' Hn]]; [|apply i_pend0; exact Hx'].
    unfold q', add_task. cbn [group tasks pending]. rewrite (i_pend0 q Hq), app_length. simpl. lia.
  - intros g. ev. rewrite i_task0, (queued_one _ _ _ ND), (queued_one _ _ _ ND'). unfold q', add_task. cbn [group tasks].
    destruct (group q =? g) eqn:E; rewrite ?app_nil_r; [|reflexivity]. apply Nat.eqb_eq in E. subst g. rewrite R1, !app_nil_r, app_assoc. reflexivity.
  - intros g. ev. rewrite i_comp0, (queuedC_one _ _ _ ND), (queuedC_one _ _ _ ND'). reflexivity.
  - intros g Z. ev. apply i_perm0. exact Z.
  - intros g Z. ev. destruct (group q =? g) eqn:E; [apply Nat.eqb_eq in E; lia|]. rewrite app_nil_r. apply i_gone0. exact Z.
  - intros g Z. ev. apply i_rem0. exact Z.
  - intros x Hx Hc. ev. destruct (in_other a q [] q' x ND Hx) as [->|[Hx' Hn]]; [apply (i_closed0 q Hq CL)|apply i_closed0; auto].
  - intros g H. evh H. destruct (group q =? g) eqn:E; [apply Nat.eqb_eq in E; lia|]. rewrite app_nil_r in H. apply i_pos0. exact H.
  - ev. apply ids_snoc. exact i_ids0.
  - intros l1 d g l2 E u Hu. apply snoc_split in E as [(_ & _ & E)|(r & -> & E)]; [discriminate|]. evh Hu.
    destruct (group q =? g) eqn:EG; [|rewrite app_nil_r in Hu; eapply i_hc0; eauto].
    apply Nat.eqb_eq in EG. subst g. rewrite E in C2. evh C2. change (StartedC d (group q) :: r) with ([StartedC d (group q)] ++ r) in C2. evh C2. rewrite Nat.eqb_refl in C2.
    apply app_eq_nil in C2 as [_ C2]. discriminate.
  - intros l1 g l2 E. apply snoc_split in E as [(_ & _ & E)|(r & -> & E)]; [discriminate|]. eapply i_hw0; eauto.
Qed.
Lemma inv_addC a q lg nid js l : inv (a ++ [q]) lg nid js l -> inv (a ++ [add_comp nid q]) lg (S nid) js (l ++ [AddedC nid (group q)]).
Proof.
  intros I. set (q' := add_comp nid q).
  assert (GE : groups (a ++ [q']) = groups (a ++ [q])) by (apply groups_mid; reflexivity).
  assert (ND := i_nodup _ _ _ _ _ I). assert (ND' : NoDup (groups (a ++ [q']))) by (rewrite GE; exact ND).
  assert (Hq : In q (a ++ [q])) by (apply in_app_iff; simpl; auto).
  assert (Hg : In (group q) (groups (a ++ [q]))) by (unfold groups; apply in_map; exact Hq).
  destruct I. assert (G1 := i_lg0 _ Hg). destruct (i_rem0 _ Hg) as [R1 R2].
  constructor; rewrite ?GE; auto.
  - intros x Hx. destruct (in_other a q [] q' x ND Hx) as [->|[Hx' Hn]]; [apply (i_pend0 q Hq)|apply i_pend0; exact Hx'].
  - intros g. ev. rewrite i_task0, (queued_one _ _ _ ND), (queued_one _ _ _ ND'). reflexivity.
  - intros g. ev. rewrite i_comp0, (queuedC_one _ _ _ ND), (queuedC_one _ _ _ ND'). unfold q', add_comp. cbn [group comps].
    destruct (group q =? g) eqn:E; rewrite ?app_nil_r; [|reflexivity]. apply Nat.eqb_eq in E. subst g. rewrite R2, !app_nil_r, app_assoc. reflexivity.
  - intros g Z. ev. apply i_perm0. exact Z.
  - intros g Z. ev. destruct (group q =? g) eqn:E; [apply Nat.eqb_eq in E; lia|]. rewrite app_nil_r. apply i_gone0. exact Z.
  - intros g Z. ev. apply i_rem0. exact Z.
  - intros x Hx Hc. ev. destruct (in_other a q [] q' x ND Hx) as [->|[Hx' Hn]]; [discriminate|apply i_closed0; auto].
  - intros g H. evh H. destruct (group q =? g) eqn:E; [apply Nat.eqb_eq in E; lia|]. rewrite app_nil_r in H. apply i_pos0. exact H.
  - ev. apply ids_snoc. exact i_ids0.
  - intros l1 d g l2 E u Hu. apply snoc_split in E as [(_ & _ & E)|(r & -> & E)]; [discriminate|]. evh Hu. eapply i_hc0; eauto.
  - intros l1 g l2 E. apply snoc_split in E as [(_ & _ & E)|(r & -> & E)]; [discriminate|]. eapply i_hw0; eauto.
Qed.
Lemma inv_close pre q post lg nid js l : inv (pre ++ q :: post) lg nid js l -> inv (pre ++ close q :: post) lg nid js l.
Proof.
  intros I. set (q' := close q).
  assert (GE : groups (pre ++ q' :: post) = groups (pre ++ q :: post)) by (apply groups_mid; reflexivity).
  assert (ND := i_nodup _ _ _ _ _ I). assert (ND' : NoDup (groups (pre ++ q' :: post))) by (rewrite GE; exact ND).
  assert (Hq : In q (pre ++ q :: post)) by (apply in_app_iff; simpl; auto).
  destruct I. constructor; rewrite ?GE; auto.
  - intros x Hx. destruct (in_other pre q post q' x ND Hx) as [->|[Hx' Hn]]; [apply (i_pend0 q Hq)|apply i_pend0; exact Hx'].
  - intros g. rewrite i_task0, (queued_one _ _ _ ND), (queued_one _ _ _ ND'). reflexivity.
  - intros g. rewrite i_comp0, (queuedC_one _ _ _ ND), (queuedC_one _ _ _ ND'). reflexivity.
  - intros x Hx Hc. destruct (in_other pre q post q' x ND Hx) as [->|[Hx' Hn]]; [discriminate|apply i_closed0; auto].
Qed.
Lemma inv_returned qs lg nid js l g : ~ In g (groups qs) -> g <> 0 -> inv qs lg nid js l -> inv qs lg nid js (l ++ [WaitReturned g]).
Proof.
  intros N Z I. destruct I. constructor; auto.
  1-8: intros; try match goal with H : _ \/ _ |- _ => evh H end; ev; auto.
  - intros l1 d h l2 E u Hu; evh Hu; apply snoc_split in E as [(_ & _ & E)|(r & -> & E)]; [discriminate|]; eapply i_hc0; eauto.
  - intros l1 h l2 E. apply snoc_split in E as [(_ & <- & E)|(r & -> & E)]; [|eapply i_hw0; eauto].
    inversion E; subst h. destruct (queued_out _ _ N) as [Q1 Q2]. split; intros t Ht.
    + rewrite i_task0, Q1 in Ht. simpl in Ht. apply in_app_iff in Ht as [Ht|Ht]; [left|auto].
      eapply Permutation_in in Ht; [|apply i_perm0; exact Z].
      assert (R : of_group g js = []).
      { destruct (of_group g js) eqn:R; [reflexivity|]. exfalso.
        assert (X : In n (of_group g js)) by (rewrite R; simpl; auto). unfold of_group in X. apply in_map_iff in X as (j & _ & X). apply filter_In in X as [X Y]. apply Nat.eqb_eq in Y.
        destruct (i_run0 j X ltac:(lia)) as [W _]. congruence. }
      rewrite R, app_nil_r in Ht. exact Ht.
    + rewrite i_comp0, Q2 in Ht. simpl in Ht. apply in_app_iff in Ht. exact Ht.
Qed.
Lemma inv_removeall qs lg nid js l : (forall j, In j js -> taskGroup j = 0) -> inv qs lg nid js l -> inv [] lg nid js (l ++ [Removed qs]).
Proof.
  intros R I. destruct I.
  constructor; auto.
  - simpl. tauto.
  - constructor.
  - simpl. tauto.
  - intros j Hj Hz. specialize (R j Hj). congruence.
  - intros g. ev. rewrite i_task0. f_equal. simpl.
    destruct (in_dec Nat.eq_dec g (groups qs)) as [H|H]; [rewrite (proj1 (i_rem0 _ H)), app_nil_r; reflexivity|rewrite (proj1 (queued_out _ _ H)), app_nil_r; reflexivity].
  - intros g. ev. rewrite i_comp0. f_equal. simpl.
    destruct (in_dec Nat.eq_dec g (groups qs)) as [H|H]; [rewrite (proj2 (i_rem0 _ H)), app_nil_r; reflexivity|rewrite (proj2 (queued_out _ _ H)), app_nil_r; reflexivity].
  - intros g Hg. ev. apply i_perm0. exact Hg.
  - intros g Hg. ev. apply i_gone0. exact Hg.
  - simpl. tauto.
  - simpl. tauto.
  - intros g H. evh H. apply i_pos0. exact H.
  - ev. exact i_ids0.
  - intros l1 d h l2 E u Hu; evh Hu; apply snoc_split in E as [(_ & _ & E)|(r & -> & E)]; [discriminate|]; eapply i_hc0; eauto.
  - intros l1 h l2 E; apply snoc_split in E as [(_ & _ & E)|(r & -> & E)]; [discriminate|]; eapply i_hw0; eauto.
Qed.

(** ** The pool *)
Definition Inv (s : pool) : Prop := inv (queues s) (last_group s) (next_id s) (jobs (workers s)) (log s).
Lemma jobs_app a b : jobs (a ++ b) = jobs a ++ jobs b. Proof. apply flat_map_app. Qed.
Definition jobs_of (p : place) : list job := match p with Running j => [j] | _ => [] end.
Lemma jobs_upd ws i w w' : nth_error ws i = Some w -> exists js, Permutation (jobs ws) (jobs_of (place_of w) ++ js) /\ Permutation (jobs (upd ws i w')) (jobs_of (place_of w') ++ js).
Proof.
  intros H. destruct (upd_split _ ws i w' w H) as (a & b & E & _ & U). rewrite U, E. exists (jobs a ++ jobs b).
  assert (X : forall v, Permutation (jobs (a ++ v :: b)) (jobs_of (place_of v) ++ jobs a ++ jobs b)).
  { intros v. rewrite jobs_app. simpl. fold (jobs b). unfold jobs_of.
    rewrite !app_assoc. apply Permutation_app_tail. apply Permutation_app_comm. }
  split; apply X.
Qed.
Lemma jobs_upd_same ws i w p c : nth_error ws i = Some w -> jobs_of (place_of w) = [] -> jobs_of p = [] -> Permutation (jobs ws) (jobs (upd ws i (mkW p c))).
Proof. intros H A B. destruct (jobs_upd ws i w (mkW p c) H) as (js & P & Q). rewrite A in P. simpl in Q. rewrite B in Q. eapply Permutation_trans; [exact P|apply Permutation_sym; exact Q]. Qed.
Lemma jobs_map_wake ws : jobs (map wake ws) = jobs ws.
Proof. induction ws as [|w ws IH]; simpl; auto. fold (jobs (map wake ws)) (jobs ws). rewrite IH. f_equal. unfold wake, waiting. destruct w as [[] c]; reflexivity. Qed.
Lemma jobs_wake ws i w : nth_error ws i = Some w -> Permutation (jobs ws) (jobs (upd ws i (wake w))).
Proof.
  intros H. destruct (jobs_upd ws i w (wake w) H) as (js & P & Q). assert (E : jobs_of (place_of (wake w)) = jobs_of (place_of w)) by (unfold wake, waiting; destruct w as [[] c]; reflexivity).
  rewrite E in Q. eapply Permutation_trans; [exact P|apply Permutation_sym; exact Q].
Qed.
Lemma step_inv s l : Inv s -> allowed s l -> exists s', step s l = Ok s' /\ Inv s'.
Proof.
  intros I A. destruct l as [i|i|i| | |g| | |i|]; cbn [step].
  - destruct (nth_error (workers s) i) as [w|] eqn:W; [|eauto]. unfold worker_step.
    destruct (place_of w) as [| |j| | |] eqn:P.
    + destruct (mutex_free s); [|eauto]. eexists. split; [reflexivity|]. unfold Inv, loop_head, put_worker. cbn.
      eapply inv_js; [|exact I]. eapply jobs_upd_same; [exact W|rewrite P; reflexivity|destruct (cancelled w); reflexivity].
    + destruct (next_task (queues s)) as [qs [j|]] eqn:N; (eexists; split; [reflexivity|]); unfold Inv, note, put_worker, with_queues, with_idle; cbn.
      * apply next_some in N as (pre & q & post & q' & E & F & -> & D). unfold Inv in I. rewrite E in I.
        apply (inv_free _ _ _ _ _ _ F) in I.
        assert (QN : forall g, queued g (filter busy pre) = []) by (intros g; apply (queued_filter g pre F)).
        destruct (jobs_upd _ _ _ (mkW (Running j) (cancelled w)) W) as (js & P1 & P2). rewrite P in P1. simpl in P1, P2.
        eapply inv_js; [apply Permutation_sym; exact P2|]. eapply inv_js in I; [|exact P1].
        assert (GZ : 1 <= group q) by (apply (i_lg _ _ _ _ _ I); rewrite groups_app, in_app_iff; simpl; auto).
        destruct D as [(t & ts & T & -> & ->)|(c & cs & T & PZ & C & -> & ->)].
        { unfold start_event. cbn [taskGroup jid from]. destruct (group q =? 0) eqn:Z; [apply Nat.eqb_eq in Z; lia|].
          apply inv_start; auto. }
        { unfold start_event. cbn [taskGroup jid from]. simpl. apply inv_startC; auto. }
      * apply next_none in N as [F ->]. eapply inv_js; [eapply (jobs_upd_same _ _ w); [exact W|rewrite P; reflexivity|reflexivity]|].
        unfold Inv in I. rewrite <- (app_nil_r (queues s)) in I. apply inv_free in I; [|exact F]. rewrite app_nil_r in I. exact I.
    + destruct (mutex_free s); [|eauto].
      destruct (jobs_upd _ _ _ (mkW (if cancelled w then Stopped else Holding) (cancelled w)) W) as (js & P1 & P2). rewrite P in P1. simpl in P1.
      assert (P2' : Permutation js (jobs (upd (workers s) i (mkW (if cancelled w then Stopped else Holding) (cancelled w))))) by (apply Permutation_sym; destruct (cancelled w); exact P2).
      unfold Inv in I. eapply inv_js in I; [|exact P1]. unfold complete, done_event. destruct (taskGroup j =? 0) eqn:Z.
      * apply Nat.eqb_eq in Z. eexists. split; [reflexivity|]. unfold Inv, loop_head, put_worker, note, with_queues. cbn.
        eapply inv_js; [exact P2'|]. apply inv_plain; [exact Logic.I|]. eapply inv_doneC; eauto.
      * apply Nat.eqb_neq in Z. destruct (i_run _ _ _ _ _ I j (or_introl eq_refl) Z) as [G Fr].
        destruct (get_queue (queues s) (taskGroup j)) as [q|] eqn:Q; [|apply get_queue_none in Q; contradiction].
        destruct (get_queue_split _ _ _ Q) as (pre & post & E & GQ).
        destruct j as [t tg f]. cbn [taskGroup jid from] in *. subst tg f. rewrite E in I. destruct (inv_done _ _ _ _ _ _ _ _ _ I) as [PN I'].
        destruct (pending q) as [|n] eqn:PE; [contradiction|].
        eexists. split; [reflexivity|]. unfold Inv, loop_head, put_worker, note, with_queues. cbn.
        eapply inv_js; [exact P2'|]. rewrite E, set_queue_split by (apply (i_nodup _ _ _ _ _ I)). rewrite PE. exact I'.
    + eauto.
    + destruct (mutex_free s); [|eauto]. eexists. split; [reflexivity|]. unfold Inv, loop_head, put_worker. cbn.
      eapply inv_js; [|exact I]. eapply jobs_upd_same; [exact W|rewrite P; reflexivity|destruct (cancelled w); reflexivity].
    + eauto.
  - destruct (nth_error (workers s) i) as [w|] eqn:W; [|eauto]. eexists. split; [reflexivity|]. unfold Inv. cbn. eapply inv_js; [apply jobs_wake; exact W|exact I].
  - destruct (owed s); [eauto|]. destruct (existsb waiting (workers s)).
    + destruct (nth_error (workers s) i) as [w|] eqn:W; [|eauto]. destruct (waiting w); [|eauto]. eexists. split; [reflexivity|]. unfold Inv. cbn. eapply inv_js; [apply jobs_wake; exact W|exact I].
    + eexists. split; [reflexivity|]. exact I.
  - destruct (mutex_free s); [|eauto]. unfold open_queue. destruct (last_queue (queues s)) as [q|] eqn:L.
    + destruct (last_split _ _ L) as (a & E). destruct (closed q) eqn:C.
      * eexists. split; [reflexivity|]. unfold Inv. cbn. rewrite set_last_snoc. unfold group_of_last. rewrite last_snoc. apply inv_add; [reflexivity|]. apply inv_new. exact I.
      * eexists. split; [reflexivity|]. unfold Inv. cbn. unfold group_of_last. rewrite L. rewrite E. rewrite set_last_snoc. apply inv_add; [exact C|]. rewrite <- E. exact I.
    + apply last_none in L. eexists. split; [reflexivity|]. unfold Inv. cbn. apply (inv_add []); [reflexivity|]. apply (inv_new []). rewrite <- L. exact I.
  - destruct (mutex_free s); [|eauto]. destruct (queues s) as [|q0 qs] eqn:Q.
    + eexists. split; [reflexivity|]. unfold Inv. cbn. apply inv_ran. rewrite <- Q. exact I.
    + destruct (set_last_ne (q0 :: qs) (add_comp (next_id s)) ltac:(discriminate)) as (a & q & E & S & G).
      eexists. split; [reflexivity|]. unfold Inv. cbn [queues last_group next_id workers log]. rewrite S, G. apply inv_addC. rewrite <- E, <- Q. exact I.
  - destruct (mutex_free s); [|eauto]. destruct (g =? 0) eqn:Z; [eauto|]. apply Nat.eqb_neq in Z. destruct (get_queue (queues s) g) as [q|] eqn:Q.
    + destruct (get_queue_split _ _ _ Q) as (pre & post & E & GQ). eexists. split; [reflexivity|]. unfold Inv, with_queues. cbn.
      unfold Inv in I. rewrite E in *. subst g. rewrite set_queue_split by (apply (i_nodup _ _ _ _ _ I)). apply inv_close. exact I.
    + eexists. split; [reflexivity|]. unfold Inv, note. cbn. apply inv_returned; auto. apply get_queue_none. exact Q.
  - destruct (mutex_free s); [|eauto]. eexists. split; [reflexivity|]. unfold Inv. cbn. apply inv_removeall; [exact (A eq_refl)|exact I].
  - destruct (mutex_free s); [|eauto]. eexists. split; [reflexivity|]. unfold Inv, note. cbn. apply inv_plain; [exact Logic.I|exact I].
  - destruct (nth_error (workers s) i) as [w|] eqn:W; [|eauto]. eexists. split; [reflexivity|]. unfold Inv. cbn. eapply inv_js; [|exact I].
    destruct (jobs_upd _ _ _ (mkW (place_of w) true) W) as (js & P1 & P2). simpl in P2. eapply Permutation_trans; [exact P1|apply Permutation_sym; exact P2].
  - eexists. split; [reflexivity|]. unfold Inv. cbn. rewrite jobs_map_wake. exact I.
Qed.
Lemma jobs_init n : jobs (repeat (mkW Ready false) n) = []. Proof. induction n; simpl; auto. Qed.
Lemma init_inv n : Inv (init n).
Proof.
  unfold Inv, init. cbn. rewrite jobs_init. constructor; simpl; try tauto; auto.
  - constructor.
  - split; constructor.
  - intros l1 g l2 E. destruct l1; discriminate.
Qed.
Lemma run_inv : forall ls s, Inv s -> allowed_run s ls -> exists s', run s ls = Ok s' /\ Inv s'.
Proof.
  induction ls as [|l ls IH]; cbn [run allowed_run]; intros s I A; [eauto|]. destruct A as [A1 A2].
  destruct (step_inv s l I A1) as (s1 & E & I1). rewrite E. cbn [obind]. apply IH; auto.
Qed.
