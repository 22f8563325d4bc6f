(** Real-time scheduling: as long as no worker is cancelled, somebody is awake. *)
Require Import Coq.Lists.List Coq.Bool.Bool Coq.Arith.Arith Lia.
Require Import Verif.Base Verif.TPoolRT_Model.
Import ListNotations.

Record inv (s : pool) : Prop := mkInv {
  v_tasks : seq 0 (next_id s) = started s ++ tasks s;
  v_nc : forall w, In w (workers s) -> cancelled w = false;
  v_ns : forall w, In w (workers s) -> place_of w <> Stopped;
  v_wait : forall w, In w (workers s) -> place_of w = Waiting \/ place_of w = Woken \/ place_of w = Yielding -> idle w = true;
  v_run : forall w t, In w (workers s) -> place_of w = Running t -> idle w = false;
  v_sb : forall w, In w (workers s) -> standby w = true -> idle w = true /\ place_of w <> Waiting;
  v_some : workers s <> [] -> exists w, In w (workers s) /\ (if standbyThreads s then standby w = true else idle w = false);
  v_hold : forall i j w v, nth_error (workers s) i = Some w -> nth_error (workers s) j = Some v -> place_of w = Holding -> place_of v = Holding -> i = j
}.
Lemma in_upd {A} (l : list A) i x y v : nth_error l i = Some x -> In v (upd l i y) -> v = y \/ In v l.
Proof.
  intros W H. destruct (upd_split _ l i y x W) as (a & b & E & _ & U). rewrite U in H. rewrite E. rewrite in_app_iff in *. simpl in *. intuition.
Qed.
Lemma keep_or {A} (l : list A) i x y v : nth_error l i = Some x -> In v l -> v = x \/ In v (upd l i y).
Proof.
  intros W H. destruct (upd_split _ l i y x W) as (a & b & E & _ & U). rewrite U. rewrite E in H. rewrite in_app_iff in *. simpl in *. intuition.
Qed.
Lemma new_in {A} (l : list A) i x y : nth_error l i = Some x -> In y (upd l i y).
Proof. intros W. destruct (upd_split _ l i y x W) as (a & b & E & _ & U). rewrite U, in_app_iff. simpl. auto. Qed.
Lemma nth_upd {A} (l : list A) i x y j v : nth_error l i = Some x -> nth_error (upd l i y) j = Some v -> (i = j /\ v = y) \/ (i <> j /\ nth_error l j = Some v).
Proof.
  intros W H. destruct (Nat.eq_dec i j) as [->|N].
  - rewrite nth_error_upd_eq in H by (apply nth_error_Some; congruence). left. split; congruence.
  - rewrite nth_error_upd_neq in H by auto. auto.
Qed.
Lemma free_none s : mutex_free s = true -> forall w, In w (workers s) -> place_of w <> Holding.
Proof. unfold mutex_free. rewrite forallb_forall. intros H w Hw E. specialize (H w Hw). unfold holding in H. rewrite E in H. discriminate. Qed.
(** Replacing one worker by a suitable one. *)
Lemma inv_put s i w w' ts (sb : bool) o nid st it : inv s -> nth_error (workers s) i = Some w ->
  seq 0 nid = st ++ ts ->
  cancelled w' = false -> place_of w' <> Stopped ->
  (place_of w' = Waiting \/ place_of w' = Woken \/ place_of w' = Yielding -> idle w' = true) ->
  (forall t, place_of w' = Running t -> idle w' = false) ->
  (standby w' = true -> idle w' = true /\ place_of w' <> Waiting) ->
  (place_of w' = Holding -> place_of w = Holding \/ mutex_free s = true) ->
  (if sb then standby w' = true \/ (standbyThreads s = true /\ (standby w = true -> standby w' = true))
   else idle w' = false \/ (standbyThreads s = false /\ (idle w = false -> idle w' = false))) ->
  inv (mkP ts sb (upd (workers s) i w') o nid st it).
Proof.
  intros I W T C P Q R B H S. destruct I. pose proof (nth_error_In _ _ W) as Hw. constructor; cbn [tasks standbyThreads workers owed next_id started].
  - exact T.
  - intros v Hv. destruct (in_upd _ _ _ _ _ W Hv) as [->|X]; auto.
  - intros v Hv. destruct (in_upd _ _ _ _ _ W Hv) as [->|X]; auto.
  - intros v Hv. destruct (in_upd _ _ _ _ _ W Hv) as [->|X]; auto.
  - intros v t Hv. destruct (in_upd _ _ _ _ _ W Hv) as [->|X]; eauto.
  - intros v Hv. destruct (in_upd _ _ _ _ _ W Hv) as [->|X]; auto.
  - intros _. destruct sb.
    + destruct S as [S|[S1 S2]]; [exists w'; split; [eapply new_in; eauto|exact S]|].
      destruct (v_some0 ltac:(intros E; rewrite E in Hw; exact Hw)) as (v & Hv & V). rewrite S1 in V.
      destruct (keep_or _ _ _ w' _ W Hv) as [->|X]; [exists w'; split; [eapply new_in; eauto|auto]|exists v; auto].
    + destruct S as [S|[S1 S2]]; [exists w'; split; [eapply new_in; eauto|exact S]|].
      destruct (v_some0 ltac:(intros E; rewrite E in Hw; exact Hw)) as (v & Hv & V). rewrite S1 in V.
      destruct (keep_or _ _ _ w' _ W Hv) as [->|X]; [exists w'; split; [eapply new_in; eauto|auto]|exists v; auto].
  - intros a b x y Ha Hb Px Py. destruct (nth_upd _ _ _ _ _ _ W Ha) as [[-> ->]|[Na Xa]]; destruct (nth_upd _ _ _ _ _ _ W Hb) as [[Eb ->]|[Nb Xb]]; auto.
    + destruct (H Px) as [Y|Y]; [eapply v_hold0; eauto|]. exfalso. exact (free_none s Y y (nth_error_In _ _ Xb) Py).
    + subst b. destruct (H Py) as [Y|Y]; [eapply v_hold0; eauto|]. exfalso. exact (free_none s Y x (nth_error_In _ _ Xa) Px).
    + eapply v_hold0; eauto.
Qed.
Lemma wake_same w : place_of (wake w) = (match place_of w with Waiting => Woken | p => p end) /\ idle (wake w) = idle w /\ standby (wake w) = standby w /\ cancelled (wake w) = cancelled w.
Proof. unfold wake, waiting. destruct w as [[] a b c d]; repeat split. Qed.
Lemma wake_inv_one s i w o : inv s -> nth_error (workers s) i = Some w -> inv (with_workers s (upd (workers s) i (wake w)) o).
Proof.
  intros I W. destruct (wake_same w) as (P & A & B & C). pose proof (nth_error_In _ _ W) as Hw. unfold with_workers.
  pose proof (v_wait _ I w Hw) as VW. pose proof (fun t => v_run _ I w t Hw) as VR. pose proof (v_sb _ I w Hw) as VS.
  eapply inv_put; eauto; rewrite ?A, ?B, ?C, ?P.
  - apply (v_tasks _ I).
  - apply (v_nc _ I w Hw).
  - pose proof (v_ns _ I w Hw). destruct (place_of w); congruence.
  - destruct (place_of w); intros [|[|]]; try discriminate; apply VW; auto.
  - intros t. destruct (place_of w) eqn:E; try discriminate. intros _. eapply VR. reflexivity.
  - intros E. destruct (VS E) as [X Y]. split; [exact X|]. destruct (place_of w); congruence.
  - destruct (place_of w); try discriminate; auto.
  - destruct (standbyThreads s); auto.
Qed.
Lemma wake_inv_all s : inv s -> inv (with_workers s (map wake (workers s)) (owed s)).
Proof.
  intros I. destruct I. constructor; cbn; auto.
  - intros v Hv. apply in_map_iff in Hv as (w & <- & Hw). destruct (wake_same w) as (P & A & B & C). rewrite C. auto.
  - intros v Hv. apply in_map_iff in Hv as (w & <- & Hw). destruct (wake_same w) as (P & A & B & C). rewrite P. specialize (v_ns0 w Hw). destruct (place_of w); congruence.
  - intros v Hv. apply in_map_iff in Hv as (w & <- & Hw). destruct (wake_same w) as (P & A & B & C). rewrite P, A. specialize (v_wait0 w Hw). destruct (place_of w); intros [|[|]]; try discriminate; apply v_wait0; auto.
  - intros v t Hv. apply in_map_iff in Hv as (w & <- & Hw). destruct (wake_same w) as (P & A & B & C). rewrite P, A. intros E. destruct (place_of w) eqn:PW; try discriminate. eapply v_run0; eauto.
  - intros v Hv. apply in_map_iff in Hv as (w & <- & Hw). destruct (wake_same w) as (P & A & B & C). rewrite P, A, B. intros E. destruct (v_sb0 w Hw E). split; auto. destruct (place_of w); congruence.
  - intros N. assert (N' : workers s <> []) by (intros E; apply N; rewrite E; reflexivity). destruct (v_some0 N') as (w & Hw & X). exists (wake w). split; [apply in_map; exact Hw|].
    destruct (wake_same w) as (P & A & B & C). rewrite A, B. exact X.
  - intros a b x y Ha Hb Px Py. rewrite nth_error_map in Ha, Hb. destruct (nth_error (workers s) a) as [x0|] eqn:Xa; [|discriminate]. destruct (nth_error (workers s) b) as [y0|] eqn:Yb; [|discriminate].
    simpl in Ha, Hb. inversion Ha; inversion Hb; subst. destruct (wake_same x0) as (P1 & _). destruct (wake_same y0) as (P2 & _). rewrite P1 in Px. rewrite P2 in Py.
    eapply v_hold0; eauto; [destruct (place_of x0); congruence|destruct (place_of y0); congruence].
Qed.
Definition quiet_label (l : label) : Prop := match l with Cancel _ | Restart _ => False | _ => True end.
Lemma step_inv s l : inv s -> quiet_label l -> inv (step s l).
Proof.
  intros I Q. destruct l as [i|i|i| |i| |n]; try contradiction; cbn [step].
  - destruct (nth_error (workers s) i) as [w|] eqn:W; [|exact I]. pose proof (nth_error_In _ _ W) as Hw.
    pose proof (v_nc _ I w Hw) as NC. pose proof (v_wait _ I w Hw) as VW. pose proof (fun t => v_run _ I w t Hw) as VR. pose proof (v_sb _ I w Hw) as VS. pose proof (v_tasks _ I) as VT.
    unfold worker_step. destruct (place_of w) eqn:P; try exact I.
    + destruct (mutex_free s) eqn:M; [|exact I]. unfold put, head. rewrite NC. eapply inv_put; eauto; cbn; try discriminate; try tauto; try (intros [|[|]]; discriminate).
      * intros E. destruct (VS E). split; [auto|discriminate].
      * destruct (standbyThreads s); auto.
    + destruct (tasks s) as [|t ts] eqn:T.
      * eapply inv_put; eauto; cbn.
        { match goal with |- (if ?b then _ else _) <> _ => destruct b; discriminate end. }
        { intros u. destruct ((if idle w then standby w else standby w || negb (standbyThreads s)) || cooldown w); discriminate. }
        { intros E. rewrite E. cbn. split; [reflexivity|discriminate]. }
        { destruct (idle w) eqn:ID.
          - destruct (standbyThreads s); [right; split; [reflexivity|auto]|]. right. split; [reflexivity|discriminate].
          - destruct (standbyThreads s); [right; split; [reflexivity|intros ->; reflexivity]|left; rewrite orb_true_r; reflexivity]. }
      * eapply inv_put; eauto; cbn; try discriminate; try (intros [|[|]]; discriminate).
        { rewrite VT. rewrite <- app_assoc. reflexivity. }
        { destruct (standby w) eqn:E; [left; reflexivity|]. destruct (standbyThreads s); [right; split; [reflexivity|discriminate]|left; reflexivity]. }
    + destruct (mutex_free s) eqn:M; [|exact I]. unfold put, head. cbn. rewrite NC. eapply inv_put; eauto; cbn; try discriminate; try tauto; try (intros [|[|]]; discriminate).
      * intros E. destruct (VS E). split; [auto|discriminate].
      * destruct (standbyThreads s); auto.
    + destruct (mutex_free s) eqn:M; [|exact I]. unfold put, head. cbn. rewrite NC. eapply inv_put; eauto; cbn; try discriminate; try tauto; try (intros [|[|]]; discriminate).
      * intros E. destruct (VS E). split; [auto|discriminate].
      * destruct (standbyThreads s); auto.
    + destruct (mutex_free s) eqn:M; [|exact I]. unfold put, head. cbn. rewrite NC. eapply inv_put; eauto; cbn; try discriminate; try tauto; try (intros [|[|]]; discriminate).
      * intros E. destruct (VS E). split; [auto|discriminate].
      * destruct (standbyThreads s); auto.
  - destruct (nth_error (workers s) i) as [w|] eqn:W; [|exact I]. apply (wake_inv_one s i w); auto.
  - destruct (owed s); [exact I|]. destruct (existsb waiting (workers s)); [|destruct I; constructor; auto].
    destruct (nth_error (workers s) i) as [w|] eqn:W; [|exact I]. destruct (waiting w); [|exact I]. apply (wake_inv_one s i w); auto.
  - destruct (mutex_free s); [|exact I]. destruct I. constructor; cbn [tasks workers standbyThreads next_id started]; auto. rewrite seq_S, v_tasks0, app_assoc. reflexivity.
  - apply wake_inv_all. exact I.
Qed.

Lemma init_inv n : inv (init n).
Proof.
  assert (F : forall w, In w (repeat fresh n) -> w = fresh) by (intros w H; apply repeat_spec in H; exact H).
  unfold init. constructor; cbn [tasks workers standbyThreads next_id started].
  - reflexivity.
  - intros w H. rewrite (F w H). reflexivity.
  - intros w H. rewrite (F w H). discriminate.
  - intros w H. rewrite (F w H). intros [|[|]]; discriminate.
  - intros w t H. rewrite (F w H). discriminate.
  - intros w H. rewrite (F w H). discriminate.
  - destruct n; [simpl; tauto|]. intros _. exists fresh. simpl. auto.
  - intros i j w v Hi _ P. apply nth_error_In in Hi. rewrite (F w Hi) in P. discriminate.
Qed.
Lemma run_inv : forall ls s, inv s -> Forall quiet_label ls -> inv (run s ls).
Proof. induction ls as [|l ls IH]; intros s I F; [exact I|]. inversion F; subst. apply IH; [apply step_inv; auto|assumption]. Qed.
Lemma run_app s a b : run s (a ++ b) = run (run s a) b. Proof. apply fold_left_app. Qed.
Definition work_label (l : label) : Prop := match l with Work _ => True | _ => False end.
Lemma work_quiet ls : Forall work_label ls -> Forall quiet_label ls.
Proof. apply Forall_impl. intros []; simpl; tauto. Qed.
Lemma quiet_workers s l : quiet_label l -> length (workers (step s l)) = length (workers s).
Proof.
  intros Q. destruct l as [i|i|i| |i| |n]; try contradiction; cbn [step].
  - destruct (nth_error (workers s) i) as [w|] eqn:W; [|reflexivity]. unfold worker_step, put. destruct (place_of w); try reflexivity; try (destruct (mutex_free s); cbn; rewrite ?upd_length; reflexivity).
    destruct (tasks s); cbn [workers]; apply upd_length.
  - destruct (nth_error (workers s) i); [|reflexivity]. cbn. apply upd_length.
  - destruct (owed s); [reflexivity|]. destruct (existsb waiting (workers s)); [|reflexivity]. destruct (nth_error (workers s) i) as [w|]; [|reflexivity]. destruct (waiting w); [cbn; apply upd_length|reflexivity].
  - destruct (mutex_free s); reflexivity.
  - cbn. apply map_length.
Qed.
Lemma run_workers : forall ls s, Forall quiet_label ls -> length (workers (run s ls)) = length (workers s).
Proof. induction ls as [|l ls IH]; intros s F; [reflexivity|]. inversion F; subst. cbn [run fold_left]. fold (run (step s l) ls). rewrite IH by assumption. apply quiet_workers. assumption. Qed.
Lemma take_one s : inv s -> workers s <> [] -> tasks s <> [] -> exists ls, Forall work_label ls /\ tasks (run s ls) = tl (tasks s) /\ length (workers (run s ls)) = length (workers s).
Proof.
  intros I N T. destruct (mutex_free s) eqn:M.
  - assert (A : exists w, In w (workers s) /\ place_of w <> Waiting).
    { destruct (v_some _ I N) as (w & Hw & X). exists w. split; [exact Hw|]. destruct (standbyThreads s); [apply (v_sb _ I w Hw X)|].
      intros E. rewrite (v_wait _ I w Hw) in X by auto. discriminate. }
    destruct A as (w & Hw & NW). apply In_nth_error in Hw as (i & W). pose proof (nth_error_In _ _ W) as Hw. pose proof (v_ns _ I w Hw) as NS. pose proof (v_nc _ I w Hw) as NC. pose proof (free_none s M w Hw) as NH.
    assert (E : exists w', place_of w' = Holding /\ step s (Work i) = put s i w').
    { cbn [step]. rewrite W. unfold worker_step. rewrite M. destruct (place_of w) eqn:P; try congruence; (eexists; split; [|reflexivity]); unfold head; cbn; rewrite NC; reflexivity. }
    destruct E as (w' & P & E). exists [Work i; Work i]. split; [repeat constructor|]. split; [|apply run_workers; repeat constructor]. cbn [run fold_left]. rewrite E. cbn [step]. unfold put at 1. cbn [workers].
    assert (W' : nth_error (upd (workers s) i w') i = Some w') by (apply nth_error_upd_eq; apply nth_error_Some; congruence).
    rewrite W'. unfold worker_step. rewrite P. unfold put. cbn [tasks]. destruct (tasks s) as [|t ts]; [congruence|]. reflexivity.
  - assert (A : exists w, In w (workers s) /\ place_of w = Holding).
    { unfold mutex_free in M. assert (X : existsb holding (workers s) = true).
      { destruct (existsb holding (workers s)) eqn:E; [reflexivity|]. exfalso. assert (Y : forallb (fun w => negb (holding w)) (workers s) = true); [|congruence]. apply forallb_forall. intros w Hw. destruct (holding w) eqn:H; [|reflexivity].
        assert (Z : existsb holding (workers s) = true) by (apply existsb_exists; eauto). congruence. }
      apply existsb_exists in X as (w & Hw & H). exists w. split; [exact Hw|]. unfold holding in H. destruct (place_of w); congruence. }
    destruct A as (w & Hw & P). apply In_nth_error in Hw as (i & W). exists [Work i]. split; [repeat constructor|]. split; [|apply run_workers; repeat constructor]. cbn [run fold_left step]. rewrite W. unfold worker_step. rewrite P.
    destruct (tasks s) as [|t ts]; [congruence|]. reflexivity.
Qed.
Lemma take_all : forall n s, length (tasks s) = n -> inv s -> workers s <> [] -> exists ls, Forall work_label ls /\ tasks (run s ls) = [].
Proof.
  induction n as [|n IH]; intros s L I N.
  - exists []. split; [constructor|]. apply length_zero_iff_nil. exact L.
  - destruct (take_one s I N) as (a & F & T & K); [intros E; rewrite E in L; discriminate|].
    destruct (IH (run s a)) as (b & F2 & T2).
    + rewrite T. destruct (tasks s); simpl in *; [discriminate|lia].
    + apply run_inv; [exact I|apply work_quiet; exact F].
    + intros E. rewrite E in K. destruct (workers s); [congruence|discriminate].
    + exists (a ++ b). split; [apply Forall_app; auto|]. rewrite run_app. exact T2.
Qed.
(** Labels that do not involve worker [k]. *)
Definition others (k : nat) (l : label) : Prop := match l with Work i => i <> k | Signal _ => True | _ => False end.
Definition two_busy : list label := [Work 0; Work 0; Work 1; Work 1; AddTask; Work 0; Work 0; Signal 1; Work 1; Work 1; AddTask].
Definition busy_state : pool := Eval vm_compute in run (init 2) two_busy.
Lemma busy_stays l : others 0 l -> step busy_state l = busy_state.
Proof.
  intros H. destruct l as [i|i|i| |i| |n]; try contradiction; [|reflexivity]. destruct i as [|[|i]]; [contradiction H; reflexivity|reflexivity|]. cbn. destruct i; reflexivity.
Qed.
Lemma rt_free_worker : exists s, run (init 2) two_busy = s /\ tasks s = [1] /\ map place_of (workers s) = [Running 0; Waiting] /\
  forall ls, Forall (others 0) ls -> tasks (run s ls) = [1].
Proof.
  exists busy_state. split; [vm_compute; reflexivity|]. split; [reflexivity|]. split; [reflexivity|].
  induction ls as [|l ls IH]; intros F; [reflexivity|]. inversion F; subst. unfold run in *. cbn [fold_left]. rewrite busy_stays by assumption. apply IH. assumption.
Qed.
Definition restarted : list label := [Work 0; Work 0; Cancel 0; SignalAll; Work 0; Restart 1; Work 0; Work 0; AddTask].
Definition restarted_state : pool := Eval vm_compute in run (init 1) restarted.
Lemma restarted_stays l : (match l with Work _ | Signal _ => True | _ => False end) -> step restarted_state l = restarted_state.
Proof.
  intros H. destruct l as [i|i|i| |i| |n]; try contradiction; [|reflexivity]. destruct i as [|i]; [reflexivity|]. cbn. destruct i; reflexivity.
Qed.
Lemma rt_restart : exists s, run (init 1) restarted = s /\ tasks s = [0] /\ map place_of (workers s) = [Waiting] /\
  forall ls, Forall (fun l => match l with Work _ | Signal _ => True | _ => False end) ls -> run s ls = s.
Proof.
  exists restarted_state. split; [vm_compute; reflexivity|]. split; [reflexivity|]. split; [reflexivity|].
  induction ls as [|l ls IH]; intros F; [reflexivity|]. inversion F; subst. unfold run in *. cbn [fold_left]. rewrite restarted_stays by assumption. apply IH. assumption.
Qed.
Lemma rt_tasks n ls : Forall quiet_label ls ->
  seq 0 (next_id (run (init n) ls)) = started (run (init n) ls) ++ tasks (run (init n) ls) /\
  (0 < n -> exists ls', Forall work_label ls' /\ tasks (run (init n) (ls ++ ls')) = []).
Proof.
  intros F. pose proof (run_inv ls (init n) (init_inv n) F) as I. split; [apply (v_tasks _ I)|]. intros P.
  destruct (take_all _ _ eq_refl I) as (ls' & W & T).
  - intros E. pose proof (run_workers ls (init n) F) as L. rewrite E in L. cbn in L. rewrite repeat_length in L. lia.
  - exists ls'. split; [exact W|]. rewrite run_app. exact T.
Qed.
