(** Thread contexts: every call keeps the invariant. *)
Require Import Coq.Lists.List Coq.Bool.Bool Coq.Arith.Arith Coq.Sorting.Permutation Coq.micromega.Lia.
Require Import Verif.Base Verif.Pool_Model Verif.Pool_Spec Verif.Pool_Proofs Verif.Context_Model Verif.Context_Spec Verif.Context_Proofs.
Import ListNotations.

Section Steps.
Variables key obj : Type.
Variable keq : key -> key -> bool.
Variable same : obj -> obj -> bool.
Variable fin : obj -> list obj.
Local Notation op := (op key obj).
Local Notation entries := (entries key obj).
Local Notation state := (state key obj).
Local Notation view := (view key obj).
Local Notation pv := (pv key obj).
Local Notation mkPV := (mkPV key obj).
Local Notation kd := (kd key obj).
Local Notation vw := (vw key obj).
Local Notation ci := (ci key obj).
Local Notation oi := (oi key obj).
Local Notation past := (past key obj).
Local Notation inv := (inv key obj).
Local Notation thread_of := (thread_of key obj).
Local Notation thread_ok := (thread_ok key obj).
Local Notation pool_ok := (pool_ok obj).
Local Notation balanced := (balanced key obj).

Lemma thread_at : forall s vs t x, inv s vs -> nth_error vs t = Some x -> nth_error (threads s) t = Some (thread_of x).
Proof. intros s vs t x I H. rewrite (i_threads _ _ _ _ I). apply map_nth_error. exact H. Qed.
Lemma has_ctx : forall s vs t x d m, inv s vs -> nth_error vs t = Some x -> vw x = VHas d m ->
  exists i c, ci x = Some i /\ nth_error (ctxs s) i = Some (Live c) /\ entries_of c = m /\ thr c = oi x /\ pool_ok d (pool c) /\ current s t = Ok (i, c).
Proof.
  intros s vs t x d m I Hx Hv. destruct (i_ok _ _ _ _ I _ _ Hx) as (A & B & _). unfold shape in A. rewrite Hv in A. destruct A as [A _].
  destruct (ci x) as [i|] eqn:Ei; [|congruence]. destruct (B i eq_refl) as (c & Hc & Ho). unfold ctx_ok in Ho. rewrite Hv in Ho. destruct Ho as (O1 & O2 & O3).
  exists i, c. repeat split; auto. unfold current. rewrite (thread_at _ _ _ _ I Hx). unfold Context_Proofs.thread_of. rewrite Ei, Hc. reflexivity.
Qed.
Definition with_view (x : pv) (v : view) : pv := mkPV (kd x) v (ci x) (oi x) (past x).
Lemma thread_of_has : forall x d m d' m', vw x = VHas d m -> thread_of (with_view x (VHas d' m')) = thread_of x.
Proof. intros x d m d' m' H. unfold Context_Proofs.thread_of. cbn. rewrite H. reflexivity. Qed.
(** Only the thread's own context changes. *)
Lemma inv_ctx : forall s vs t x d m i c s' c' d' m' tk re, inv s vs -> nth_error vs t = Some x -> vw x = VHas d m -> ci x = Some i -> nth_error (ctxs s) i = Some (Live c) ->
  ctxs s' = upd (ctxs s) i (Live c') -> threads s' = threads s -> refs s' = refs s -> taken s' = taken s ++ tk -> released s' = released s ++ re ->
  entries_of c' = m' -> thr c' = oi x -> pool_ok d' (pool c') ->
  Permutation (cell_objs (Live c) ++ tk) (re ++ cell_objs (Live c')) ->
  inv s' (upd vs t (with_view x (VHas d' m'))).
Proof.
  intros s vs t x d m i c s' c' d' m' tk re I Hx Hv Hi Hc E1 E2 E3 E4 E5 A1 A2 A3 P.
  pose proof (i_ok _ _ _ _ I _ _ Hx) as (B1 & B2 & B3 & B4).
  eapply (inv_update key obj s vs t x s'); eauto.
  - rewrite E2, (thread_of_has _ d m) by exact Hv. symmetry. apply upd_self. apply (thread_at _ _ _ _ I Hx).
  - intros j N L. rewrite E1. apply nth_error_upd_neq. congruence.
  - intros o _ _. rewrite E3. reflexivity.
  - rewrite E3. lia.
  - split; [|split; [|split]].
    + unfold shape in *. rewrite Hv in B1. cbn. exact B1.
    + cbn. intros j Hj. replace j with i by congruence. exists c'. rewrite E1. split; [eapply nth_upd_same; eauto|]. unfold ctx_ok. cbn. auto.
    + cbn. intros o Ho. destruct (B3 o Ho) as [C1 C2]. rewrite E3. split; [|exact C2]. rewrite C1. f_equal. unfold count. cbn. rewrite Hv. reflexivity.
    + cbn. rewrite E3. exact B4.
  - cbn. intros j cj Hj. rewrite E1 in Hj. destruct (Nat.eq_dec i j) as [->|N]; [left; exact Hi|right]. rewrite nth_error_upd_neq in Hj by exact N. split; [congruence|apply nth_error_Some; congruence].
  - eapply balance_change; eauto. exact (i_bal _ _ _ _ I).
  - cbn. intros _. repeat split; eauto.
Qed.

Lemma pool_call_inv : forall fuel s vs t x d m a d', inv s vs -> nth_error vs t = Some x -> vw x = VHas d m -> depth_next obj d a = Some d' ->
  pool_call key obj fin fuel s t a = NoFuel \/ exists s', pool_call key obj fin fuel s t a = Ok s' /\ inv s' (upd vs t (with_view x (VHas d' m))).
Proof.
  intros fuel s vs t x d m a d' I Hx Hv Hd. destruct (has_ctx _ _ _ _ _ _ I Hx Hv) as (i & c & H1 & H2 & H3 & H4 & H5 & H6).
  unfold pool_call. rewrite H6. cbn [obind snd fst]. destruct (pool_call_ok obj fin fuel d (pool c) a d' H5 Hd) as [N|(p' & C & P1 & P2)]; [rewrite N; left; reflexivity|].
  rewrite C. cbn [obind]. right. eexists. split; [reflexivity|].
  eapply (inv_ctx s vs t x d m i c _ (mkC (thr c) (dict c) (forget p')) d' m); try eassumption; try reflexivity.
  unfold cell_objs, entries_of, forget. cbn [dict thr pool objs]. rewrite <- app_assoc.
  rewrite (app_assoc (Pool_Model.released p')), (Permutation_app_comm (Pool_Model.released p') (map snd _)), <- app_assoc. apply Permutation_app_head. exact P2.
Qed.

(** Autoreleasing in the current context. *)
Lemma append_ok : forall d p x, pool_ok d p -> 1 <= d -> pool_ok d (append p x).
Proof.
  intros d p x (k & (S1 & S2 & S3 & S4) & L & B & D) Hd. destruct (append_fields unit obj p x) as (A1 & A2 & A3 & A4).
  exists (mkK (inner k ++ [x]) (outer k) (Pool_Spec.state k) []). unfold shows. cbn [inner outer Pool_Spec.state done]. rewrite A1, A2, A3, A4, S1, S2, S3, S4, D, app_assoc.
  repeat split; auto. destruct (outer k) as [|o1 o]; [cbn in L; lia|]. exact B.
Qed.
Lemma pool_released : forall d p, pool_ok d p -> Pool_Model.released p = [].
Proof. intros d p (k & (S1 & S2 & S3 & S4) & L & B & D). congruence. Qed.
Lemma forget_none : forall (p : pools unit obj), Pool_Model.released p = [] -> forget p = p.
Proof. intros [a b c d e f] H. cbn in H. subst f. reflexivity. Qed.
Lemma current_set : forall (s : state) t i c c', current s t = Ok (i, c) -> current (set_ctx s i (Live c')) t = Ok (i, c').
Proof.
  intros s t i c c' H. unfold current in *. cbn [threads set_ctx ctxs]. destruct (nth_error (threads s) t) as [[[j|] mk ph]|]; try discriminate H.
  destruct (nth_error (ctxs s) j) as [[cc|]|] eqn:E; try discriminate H. injection H as -> ->. rewrite (nth_upd_same _ _ _ _ E). reflexivity.
Qed.
Lemma current_log : forall (s : state) t tk re, current (log s tk re) t = current s t.
Proof. reflexivity. Qed.
Lemma autoreleases_ok : forall l s t i c, current s t = Ok (i, c) -> Pool_Model.released (pool c) = [] ->
  exists s' p', autoreleases key obj fin s t l = Ok s' /\ ctxs s' = upd (ctxs s) i (Live (mkC (thr c) (dict c) p')) /\ threads s' = threads s /\ refs s' = refs s /\ taken s' = taken s ++ l /\ released s' = released s /\
    objs p' = objs (pool c) ++ l /\ (forall d, pool_ok d (pool c) -> 1 <= d \/ l = [] -> pool_ok d p').
Proof.
  induction l as [|x l IH]; intros s t i c H R.
  - exists s, (pool c). cbn. repeat split; rewrite ?app_nil_r; auto. unfold current in H. destruct (nth_error (threads s) t) as [[[j|] mk ph]|]; try discriminate H.
    destruct (nth_error (ctxs s) j) as [[cc|]|] eqn:E; try discriminate H. injection H as -> ->. symmetry. apply upd_self. rewrite E. destruct c; reflexivity.
  - cbn [autoreleases]. unfold pool_call. rewrite H. cbn [obind snd fst]. change (call (rel obj fin) 1 (pool c) (Auto x)) with (@Ok (pools unit obj) (append (pool c) x)). cbn [obind]. destruct (append_fields unit obj (pool c) x) as (A1 & A2 & A3 & A4).
    rewrite (forget_none (append (pool c) x)) by congruence. rewrite A4, R. cbn [map concat app].
    match goal with |- context [autoreleases _ _ _ ?s1 t l] => set (s1' := s1) end.
    destruct (IH s1' t i (mkC (thr c) (dict c) (append (pool c) x))) as (s' & p' & B1 & B2 & B3 & B4 & B5 & B6 & B7 & B8).
    + unfold s1'. rewrite current_log. eapply current_set; eauto.
    + cbn. congruence.
    + exists s', p'. split; [exact B1|]. cbn [thr dict pool] in *. unfold s1' in B2, B3, B4, B5, B6. cbn in B2, B3, B4, B5, B6. rewrite upd_upd in B2. rewrite <- app_assoc in B5. rewrite app_nil_r in B6.
      split; [exact B2|]. split; [exact B3|]. split; [exact B4|]. split; [exact B5|]. split; [exact B6|]. split; [rewrite B7, A1, <- app_assoc; reflexivity|].
      intros d Pd [Ld|Ln]; [|discriminate Ln]. apply B8; [apply append_ok; assumption|left; exact Ld].
Qed.
Lemma release_ok : forall s t x i c, current s t = Ok (i, c) -> Pool_Model.released (pool c) = [] ->
  exists s' p', release key obj fin s t x = Ok s' /\ ctxs s' = upd (ctxs s) i (Live (mkC (thr c) (dict c) p')) /\ threads s' = threads s /\ refs s' = refs s /\ taken s' = taken s ++ fin x /\ released s' = released s ++ [x] /\
    objs p' = objs (pool c) ++ fin x /\ (forall d, pool_ok d (pool c) -> 1 <= d \/ fin x = [] -> pool_ok d p').
Proof.
  intros s t x i c H R. unfold release. destruct (autoreleases_ok (fin x) (log s [] [x]) t i c) as (s' & p' & B1 & B2 & B3 & B4 & B5 & B6 & B7 & B8); [rewrite current_log; exact H|exact R|].
  exists s', p'. cbn in B2, B3, B4, B5, B6. rewrite app_nil_r in B5. auto 10.
Qed.
Definition quiet_list (l : list obj) : Prop := Forall (fun x => fin x = []) l.
Lemma quiet_spec : forall m, quiet key obj fin m = true -> quiet_list (map snd m).
Proof.
  induction m as [|[k v] m IH]; intros H; [constructor|]. cbn in H. apply andb_true_iff in H. destruct H as [H1 H2]. constructor; [|apply IH; exact H2]. cbn. destruct (fin v); [reflexivity|discriminate H1].
Qed.
Lemma release_quiet : forall l s t, quiet_list l -> release_all key obj fin s t l = Ok (log s [] l).
Proof.
  induction l as [|x l IH]; intros s t Q; cbn [release_all].
  - unfold log. rewrite !app_nil_r. destruct s; reflexivity.
  - inversion Q as [|? ? Q1 Q2]; subst. unfold release. rewrite Q1. cbn [autoreleases obind]. rewrite IH by exact Q2. unfold log. cbn. rewrite !app_nil_r, <- app_assoc. reflexivity.
Qed.

(** ** Dictionaries *)
Lemma lookup_remove : forall (m : entries) k w, lookup key obj keq m k = Some w -> Permutation (map snd m) (w :: map snd (remove key obj keq m k)).
Proof.
  induction m as [|[k' x] m IH]; intros k w H; cbn in *; [discriminate|]. destruct (keq k' k); [injection H as ->; reflexivity|]. cbn. rewrite (IH _ _ H). apply perm_swap.
Qed.
Lemma lookup_replace : forall (m : entries) k w v, lookup key obj keq m k = Some w -> Permutation (v :: map snd m) (w :: map snd (replace key obj keq m k v)).
Proof.
  induction m as [|[k' x] m IH]; intros k w v H; cbn in *; [discriminate|]. destruct (keq k' k); [injection H as ->; apply perm_swap|]. cbn.
  rewrite perm_swap. rewrite (IH _ _ v H). apply perm_swap.
Qed.
Lemma drops_spec : forall d m k w, drops key obj keq fin d m k = true -> lookup key obj keq m k = Some w -> 1 <= d \/ fin w = [].
Proof.
  intros d m k w H E. unfold drops in H. rewrite E in H. apply orb_true_iff in H. destruct H as [H|H]; [left; apply Nat.leb_le; exact H|right; destruct (fin w); [reflexivity|discriminate H]].
Qed.
End Steps.
