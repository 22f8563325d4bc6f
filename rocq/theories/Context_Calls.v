(** Thread contexts: every call of a thread that keeps to the rules. *)
Require Import Coq.Lists.List Coq.Bool.Bool Coq.Arith.Arith Coq.Sorting.Permutation Coq.micromega.Lia.
Require Import Verif.Base Verif.Pool_Model Verif.Pool_Spec Verif.Pool_Proofs Verif.Context_Model Verif.Context_Spec Verif.Context_Proofs Verif.Context_Steps.
Import ListNotations.

Section Calls.
Variables key obj : Type.
Variable keq : key -> key -> bool.
Variable same : obj -> obj -> bool.
Variable fin : obj -> list obj.
Local Notation op := (op key obj).
Local Notation entries := (entries key obj).
Local Notation state := (state key obj).
Local Notation view := (view key obj).
Local Notation pv := (pv key obj).
Local Notation mkPV := (mkPV key obj).
Local Notation kd := (kd key obj).
Local Notation vw := (vw key obj).
Local Notation ci := (ci key obj).
Local Notation oi := (oi key obj).
Local Notation past := (past key obj).
Local Notation inv := (inv key obj).
Local Notation thread_of := (thread_of key obj).
Local Notation thread_ok := (thread_ok key obj).
Local Notation pool_ok := (pool_ok obj).
Local Notation with_view := (with_view key obj).
Local Notation Vstep := (vstep key obj keq same fin).

(** The answer that is expected, and what the thread object becomes. *)
Definition answered (t : nat) (x x' : pv) (o : op) (a : answer obj) : Prop :=
  match o with
  | Get k => exists d m, vw x = VHas d m /\ a = AObject (lookup key obj keq m k)
  | Current => exists n, a = AThread n /\ oi x' = Some n
  | IsMain => a = ABool (t =? 0)
  | _ => a = Nothing
  end.
Definition keeps (x x' : pv) (o : op) : Prop :=
  incl (past x) (past x') /\ (forall n, oi x = Some n -> (forall b, o <> Free b) -> vw x' <> VGone -> oi x' = Some n).
Definition next (vs : list pv) (t : nat) (x : pv) (o : op) (v' : view) (r : outcome (state * answer obj)) : Prop :=
  r = NoFuel \/ exists s' a x' new, r = Ok (s', a) /\ inv s' (upd vs t x' ++ new) /\ kd x' = kd x /\ vw x' = v' /\ map (fun y => (kd y, vw y)) new = made_by key obj o /\
    answered t x x' o a /\ keeps x x' o.

Lemma keeps_view : forall x v o, keeps x (with_view x v) o.
Proof. intros x v o. split; [apply incl_refl|]. cbn. auto. Qed.
Lemma nth_same : forall (vs : list pv) t x, nth_error vs t = Some x -> upd vs t x = vs.
Proof. intros. apply upd_self. assumption. Qed.

(** A new thread object. *)
Lemma current_thread_inv : forall s vs t x d m, inv s vs -> nth_error vs t = Some x -> vw x = VHas d m ->
  exists s' n x', current_thread s t = Ok (s', n) /\ inv s' (upd vs t x') /\ kd x' = kd x /\ vw x' = vw x /\ oi x' = Some n /\ ci x' = ci x /\ incl (past x) (past x') /\ (forall k, oi x = Some k -> n = k).
Proof.
  intros s vs t x d m I Hx Hv. destruct (has_ctx _ _ _ _ _ _ _ _ I Hx Hv) as (i & c & H1 & H2 & H3 & H4 & H5 & H6).
  unfold current_thread. rewrite H6. cbn [obind snd fst]. rewrite H4. destruct (oi x) as [n|] eqn:Eo.
  - exists s, n, x. split; [reflexivity|]. rewrite (nth_same _ _ _ Hx). split; [exact I|]. split; [reflexivity|]. split; [reflexivity|]. split; [exact Eo|]. split; [reflexivity|]. split; [apply incl_refl|congruence].
  - eexists _, _, (mkPV (kd x) (vw x) (ci x) (Some (length (refs s))) (length (refs s) :: past x)). split; [reflexivity|].
    pose proof (i_ok _ _ _ _ I _ _ Hx) as (B1 & B2 & B3 & B4).
    assert (kd x = KOther) as K. { unfold shape in B1. rewrite Hv in B1. destruct B1 as [_ B1]. destruct (kd x); [destruct B1; auto; discriminate|destruct B1; auto; discriminate|reflexivity]. }
    split; [|cbn; split; [reflexivity|]; split; [reflexivity|]; split; [reflexivity|]; split; [reflexivity|]; split; [intros z Hz; right; exact Hz|discriminate]].
    eapply (inv_update key obj s vs t x); eauto; cbn.
    + unfold Context_Proofs.thread_of, maker_of. cbn. rewrite K. symmetry. apply upd_self. rewrite (thread_at _ _ _ _ _ _ I Hx). unfold Context_Proofs.thread_of, maker_of. rewrite K. reflexivity.
    + intros j N L. apply nth_error_upd_neq. congruence.
    + intros o _ L. apply nth_error_app1. exact L.
    + rewrite app_length. lia.
    + intros o [E|E]; [right; lia|left; exact E].
    + split; [|split; [|split]]; cbn.
      * unfold shape. cbn. rewrite Hv. split; [congruence|discriminate].
      * intros j Hj. replace j with i by congruence. eexists. split; [eapply nth_upd_same; eauto|]. unfold ctx_ok. cbn. rewrite Hv. cbn. auto.
      * intros o E. injection E as <-. split; [|left; reflexivity]. rewrite nth_error_app2 by lia. rewrite Nat.sub_diag. cbn. unfold count. cbn. rewrite Hv, K. reflexivity.
      * rewrite app_length. cbn. constructor; [lia|]. eapply Forall_impl; [|exact B4]. cbn. intros; lia.
    + intros j cj Hj. destruct (Nat.eq_dec i j) as [->|N]; [left; exact H1|right]. rewrite nth_error_upd_neq in Hj by exact N. split; [congruence|apply nth_error_Some; congruence].
    + eapply (balance_change key obj s _ i (Live c) _ [] []); [exact (i_bal _ _ _ _ I)|exact H2|reflexivity|cbn; rewrite app_nil_r; reflexivity|cbn; rewrite app_nil_r; reflexivity|cbn; rewrite app_nil_r; reflexivity].
    + congruence.
Qed.

(** The end of a context: its thread object was released once, its dictionary and its pools are empty. *)
Lemma finalize_quiet : forall (s : state) t i c n, nth_error (ctxs s) i = Some (Live c) -> quiet_list obj fin (map snd (entries_of c)) -> pool_ok 0 (pool c) ->
  (forall o, thr c = Some o -> nth_error (refs s) o = Some (S n)) ->
  finalize key obj fin s t i = Ok (mkS (upd (ctxs s) i Freed) (threads s) (match thr c with Some o => upd (refs s) o n | None => refs s end) (taken s) (released s ++ map snd (entries_of c))).
Proof.
  intros s t i c n Hc Q Hp Hn. unfold finalize. rewrite Hc.
  assert (match dict c with Some m => map snd m | None => [] end = map snd (entries_of c)) as -> by (unfold entries_of; destruct (dict c); reflexivity).
  destruct (pool_at_0 obj _ Hp) as [Mk _].
  destruct (thr c) as [o|] eqn:Et.
  - unfold release_thread. rewrite (Hn o eq_refl). cbn [obind]. rewrite release_quiet by exact Q. cbn [obind log set_refs ctxs]. rewrite Hc, Mk. unfold set_ctx. cbn. rewrite app_nil_r. reflexivity.
  - cbn [obind]. rewrite release_quiet by exact Q. cbn [obind log ctxs]. rewrite Hc, Mk. unfold set_ctx. cbn. rewrite app_nil_r. reflexivity.
Qed.
Lemma balance_end : forall (s s' : state) i c, Context_Proofs.balanced key obj s -> nth_error (ctxs s) i = Some (Live c) -> pool_ok 0 (pool c) -> ctxs s' = upd (ctxs s) i Freed -> taken s' = taken s -> released s' = released s ++ map snd (entries_of c) ->
  Context_Proofs.balanced key obj s'.
Proof.
  intros s s' i c B Hc Hp E1 E2 E3. eapply (balance_change key obj s s' i (Live c) Freed []); eauto; [rewrite app_nil_r; exact E2|]. destruct (pool_at_0 obj _ Hp) as [_ Ob]. cbn. rewrite Ob, !app_nil_r. reflexivity.
Qed.
(** A thread gives up its context: its view becomes [v'], and its object, if it had one, counts [n]. *)
Lemma inv_leave : forall s vs t x m i c s' v' oi', inv s vs -> nth_error vs t = Some x -> vw x = VHas 0 m -> ci x = Some i -> nth_error (ctxs s) i = Some (Live c) -> entries_of c = m -> pool_ok 0 (pool c) -> kd x <> KMain ->
  ctxs s' = upd (ctxs s) i Freed -> threads s' = upd (threads s) t (thread_of (mkPV (kd x) v' None oi' (past x))) -> taken s' = taken s -> released s' = released s ++ map snd m ->
  length (refs s') = length (refs s) -> (forall o, oi x <> Some o -> nth_error (refs s') o = nth_error (refs s) o) ->
  shape key obj (mkPV (kd x) v' None oi' (past x)) -> (oi' = oi x \/ oi' = None) -> (forall o, oi' = Some o -> nth_error (refs s') o = Some (count key obj (mkPV (kd x) v' None oi' (past x)))) ->
  inv s' (upd vs t (mkPV (kd x) v' None oi' (past x))).
Proof.
  intros s vs t x m i c s' v' oi' I Hx Hv Hi Hc Hm Hp HK E1 E2 E3 E4 E5 E6 E7 E8 E9.
  pose proof (i_ok _ _ _ _ I _ _ Hx) as (B1 & B2 & B3 & B4).
  eapply (inv_update key obj s vs t x); eauto; cbn.
  - intros j N L. rewrite E1. apply nth_error_upd_neq. congruence.
  - lia.
  - split; [exact E7|]. split; [cbn; discriminate|]. split; cbn.
    + intros o Ho. split; [auto|]. destruct E8 as [E8|E8]; [|congruence]. apply (B3 o). congruence.
    + rewrite E5. exact B4.
  - intros j cj Hj. right. rewrite E1 in Hj. destruct (Nat.eq_dec i j) as [->|N]; [rewrite (nth_upd_same _ _ _ _ Hc) in Hj; discriminate Hj|]. rewrite nth_error_upd_neq in Hj by exact N. split; [congruence|apply nth_error_Some; congruence].
  - eapply balance_end; eauto; [exact (i_bal _ _ _ _ I)|]. rewrite Hm. exact E4.
  - congruence.
Qed.

Lemma add_new : forall s vs, inv s vs ->
  inv (mkS (ctxs s) (threads s ++ [mkT None (Duck (length (refs s))) Waits]) (refs s ++ [1]) (taken s) (released s)) (vs ++ [mkPV KDuck VWaits None (Some (length (refs s))) [length (refs s)]]).
Proof.
  intros s vs I. eapply (inv_add key obj s vs _ _ I); try reflexivity; cbn.
  - intros o L. apply nth_error_app1. exact L.
  - rewrite app_length. lia.
  - constructor; [lia|constructor].
  - split; [cbn; repeat split; discriminate|]. split; [discriminate|]. split; cbn.
    + intros o E. injection E as <-. split; [|left; reflexivity]. rewrite nth_error_app2 by lia. rewrite Nat.sub_diag. reflexivity.
    + rewrite app_length. cbn. constructor; [lia|constructor].
  - discriminate.
Qed.
Lemma add_other : forall s vs, inv s vs ->
  inv (mkS (ctxs s) (threads s ++ [mkT None Other Runs]) (refs s) (taken s) (released s)) (vs ++ [mkPV KOther VNone None None []]).
Proof.
  intros s vs I. eapply (inv_add key obj s vs _ _ I); try reflexivity; cbn; auto.
  - split; [cbn; repeat split|]. split; [discriminate|]. split; [discriminate|constructor].
  - discriminate.
Qed.
Lemma begins_ok : forall fuel s vs t x o, inv s vs -> nth_error vs t = Some x -> vw x = VWaits -> oi x = Some o ->
  begins key obj fin fuel s t o = NoFuel \/ exists s', begins key obj fin fuel s t o = Ok s' /\ inv s' (upd vs t (mkPV KDuck (VHas 1 []) (Some (length (ctxs s))) (Some o) (past x))).
Proof.
  intros fuel s vs t x o I Hx Hv Ho. pose proof (i_ok _ _ _ _ I _ _ Hx) as (B1 & B2 & B3 & B4). unfold shape in B1. rewrite Hv in B1. destruct B1 as (K & C & _).
  destruct (B3 o Ho) as [R1 R2]. unfold count in R1. rewrite K, Hv in R1. unfold begins, retain_thread. rewrite R1. cbn [obind].
  match goal with |- context [pool_call _ _ _ fuel ?z t Push] => set (s1 := z) end.
  set (x1 := mkPV KDuck (VHas 0 []) (Some (length (ctxs s))) (Some o) (past x)).
  assert (inv s1 (upd vs t x1)) as I1.
  { eapply (inv_update key obj s vs t x s1 x1); eauto; unfold s1, x1; cbn.
    - intros j _ L. apply nth_error_app1. exact L.
    - intros n N _. apply nth_error_upd_neq. congruence.
    - rewrite upd_length. lia.
    - split; [|split; [|split]]; cbn.
      + split; discriminate.
      + intros i E. injection E as <-. exists (fresh (Some o)). rewrite nth_error_app2 by lia. rewrite Nat.sub_diag. split; [reflexivity|]. unfold ctx_ok. cbn. split; [reflexivity|]. split; [reflexivity|apply pool_start].
      + intros n E. injection E as <-. split; [|exact R2]. eapply nth_upd_same; eauto.
      + rewrite upd_length. exact B4.
    - intros j cj Hj. destruct (Nat.lt_ge_cases j (length (ctxs s))) as [L|L]; [right; split; [congruence|exact L]|left]. rewrite nth_error_app2 in Hj by lia.
      destruct (j - length (ctxs s)) as [|z] eqn:E; [f_equal; lia|destruct z; discriminate Hj].
    - eapply (balance_add key obj s _ (Live (fresh (Some o)))); try reflexivity. exact (i_bal _ _ _ _ I).
    - congruence. }
  destruct (pool_call_inv key obj fin fuel s1 _ t x1 0 [] Push 1 I1 (nth_upd_same _ _ _ _ Hx) eq_refl eq_refl) as [N|(s' & E & I')]; [left; exact N|right].
  exists s'. split; [exact E|]. rewrite upd_upd in I'. exact I'.
Qed.
Lemma alloc_ok : forall s vs t x, inv s vs -> nth_error vs t = Some x -> vw x = VNone ->
  inv (set_current (add_ctx s (fresh None)) t (Some (length (ctxs s)))) (upd vs t (mkPV KOther (VHas 0 []) (Some (length (ctxs s))) None (past x))).
Proof.
  intros s vs t x I Hx Hv. pose proof (i_ok _ _ _ _ I _ _ Hx) as (B1 & B2 & B3 & B4). unfold shape in B1. rewrite Hv in B1. destruct B1 as (K & C & O).
  unfold set_current. cbn [threads add_ctx]. rewrite (thread_at _ _ _ _ _ _ I Hx). unfold Context_Proofs.thread_of, maker_of. rewrite K, Hv. cbn [made phase_of phase_in].
  eapply (inv_update key obj s vs t x); eauto; cbn.
  - intros j _ L. apply nth_error_app1. exact L.
  - split; [|split; [|split]]; cbn.
    + split; [discriminate|congruence].
    + intros i E. injection E as <-. exists (fresh None). rewrite nth_error_app2 by lia. rewrite Nat.sub_diag. split; [reflexivity|]. unfold ctx_ok. cbn. split; [reflexivity|]. split; [reflexivity|apply pool_start].
    + discriminate.
    + exact B4.
  - intros j cj Hj. destruct (Nat.lt_ge_cases j (length (ctxs s))) as [L|L]; [right; split; [congruence|exact L]|left]. rewrite nth_error_app2 in Hj by lia.
    destruct (j - length (ctxs s)) as [|z] eqn:E; [f_equal; lia|destruct z; discriminate Hj].
  - eapply (balance_add key obj s _ (Live (fresh None))); try reflexivity. exact (i_bal _ _ _ _ I).
  - congruence.
Qed.
(** A thread without a context ends. *)
Lemma ends_none : forall s vs t x, inv s vs -> nth_error vs t = Some x -> vw x = VNone ->
  exists s', thread_ends key obj fin s t = Ok s' /\ inv s' (upd vs t (mkPV KOther VGone None None (past x))).
Proof.
  intros s vs t x I Hx Hv. pose proof (i_ok _ _ _ _ I _ _ Hx) as (B1 & B2 & B3 & B4). unfold shape in B1. rewrite Hv in B1. destruct B1 as (K & C & O).
  unfold thread_ends. rewrite (thread_at _ _ _ _ _ _ I Hx). unfold Context_Proofs.thread_of, maker_of. rewrite K, C, Hv. cbn [tls made]. eexists. split; [reflexivity|].
  eapply (inv_update key obj s vs t x); eauto; cbn.
  - split; [|split; [|split]]; cbn; auto; discriminate.
  - intros j cj Hj. right. split; [congruence|apply nth_error_Some; congruence].
  - exact (i_bal _ _ _ _ I).
  - congruence.
Qed.
(** A thread made by the platform leaves its context: by its end, or by freeing it. *)
Lemma ends_other : forall s vs t x m, inv s vs -> nth_error vs t = Some x -> vw x = VHas 0 m -> kd x = KOther -> quiet key obj fin m = true ->
  exists s', thread_ends key obj fin s t = Ok s' /\ inv s' (upd vs t (mkPV KOther VGone None None (past x))).
Proof.
  intros s vs t x m I Hx Hv K Q. destruct (has_ctx _ _ _ _ _ _ _ _ I Hx Hv) as (i & c & H1 & H2 & H3 & H4 & H5 & H6).
  pose proof (i_ok _ _ _ _ I _ _ Hx) as (B1 & B2 & B3 & B4).
  unfold thread_ends. rewrite (thread_at _ _ _ _ _ _ I Hx). unfold Context_Proofs.thread_of, maker_of. rewrite K, H1, Hv. cbn [tls made].
  assert (forall o, thr c = Some o -> nth_error (refs s) o = Some 1) as Rf. { intros o E. rewrite H4 in E. destruct (B3 o E) as [E1 _]. rewrite E1. unfold count. rewrite K, Hv. reflexivity. }
  rewrite (finalize_quiet (set_thread s t (mkT None Other Gone)) t i c 0 H2); [|rewrite H3; apply quiet_spec; exact Q|exact H5|exact Rf]. eexists. split; [reflexivity|].
  rewrite <- K. eapply (inv_leave s vs t x m i c); eauto; cbn; try congruence.
  - unfold Context_Proofs.thread_of, maker_of. cbn. rewrite K. reflexivity.
  - destruct (thr c); [apply upd_length|reflexivity].
  - intros o N. rewrite H4. destruct (oi x) as [n|]; [|reflexivity]. apply nth_error_upd_neq. congruence.
  - unfold shape. cbn. rewrite K. auto.
Qed.
Lemma frees : forall s vs t x m i, inv s vs -> nth_error vs t = Some x -> vw x = VHas 0 m -> kd x = KOther -> quiet key obj fin m = true -> ci x = Some i ->
  exists s', finalize key obj fin (set_current s t None) t i = Ok s' /\ inv s' (upd vs t (mkPV KOther VNone None None (past x))).
Proof.
  intros s vs t x m i0 I Hx Hv K Q Hi. destruct (has_ctx _ _ _ _ _ _ _ _ I Hx Hv) as (i & c & H1 & H2 & H3 & H4 & H5 & H6). assert (i0 = i) as -> by congruence.
  pose proof (i_ok _ _ _ _ I _ _ Hx) as (B1 & B2 & B3 & B4).
  unfold set_current. rewrite (thread_at _ _ _ _ _ _ I Hx). unfold Context_Proofs.thread_of, maker_of. rewrite K, Hv. cbn [made phase_of phase_in].
  assert (forall o, thr c = Some o -> nth_error (refs s) o = Some 1) as Rf. { intros o E. rewrite H4 in E. destruct (B3 o E) as [E1 _]. rewrite E1. unfold count. rewrite K, Hv. reflexivity. }
  rewrite (finalize_quiet (set_thread s t (mkT None Other Runs)) t i c 0 H2); [|rewrite H3; apply quiet_spec; exact Q|exact H5|exact Rf]. eexists. split; [reflexivity|].
  rewrite <- K. eapply (inv_leave s vs t x m i c); eauto; cbn; try congruence.
  - unfold Context_Proofs.thread_of, maker_of. cbn. rewrite K. reflexivity.
  - destruct (thr c); [apply upd_length|reflexivity].
  - intros o N. rewrite H4. destruct (oi x) as [n|]; [|reflexivity]. apply nth_error_upd_neq. congruence.
  - unfold shape. cbn. rewrite K. auto.
Qed.
(** A thread of the library returns. *)
Lemma returns : forall s vs t x m i o, inv s vs -> nth_error vs t = Some x -> vw x = VHas 0 m -> kd x = KDuck -> quiet key obj fin m = true -> ci x = Some i -> oi x = Some o ->
  exists s', (do s1 <- finalize key obj fin (set_current s t None) t i; do s2 <- release_thread s1 o; thread_ends key obj fin s2 t) = Ok s' /\ inv s' (upd vs t (mkPV KDuck VGone None (Some o) (past x))).
Proof.
  intros s vs t x m i0 o I Hx Hv K Q Hi Ho. destruct (has_ctx _ _ _ _ _ _ _ _ I Hx Hv) as (i & c & H1 & H2 & H3 & H4 & H5 & H6). assert (i0 = i) as -> by congruence.
  pose proof (i_ok _ _ _ _ I _ _ Hx) as (B1 & B2 & B3 & B4). pose proof (thread_at _ _ _ _ _ _ I Hx) as Th.
  destruct (B3 o Ho) as [R1 R2]. unfold count in R1. rewrite K, Hv in R1.
  unfold set_current. rewrite Th. unfold Context_Proofs.thread_of at 1 2, maker_of. rewrite K, Hv, Ho. cbn [made phase_of phase_in].
  assert (forall n, thr c = Some n -> nth_error (refs s) n = Some 2) as Rf. { intros n E. congruence. }
  rewrite (finalize_quiet (set_thread s t (mkT None (Duck o) Runs)) t i c 1 H2); [|rewrite H3; apply quiet_spec; exact Q|exact H5|exact Rf].
  rewrite H4, Ho. cbn [obind set_thread ctxs threads refs taken released]. unfold release_thread. cbn [refs]. rewrite (nth_upd_same _ _ _ _ R1). cbn [obind set_refs ctxs threads refs taken released]. unfold thread_ends. cbn [threads set_thread set_refs ctxs refs taken released].
  rewrite (nth_upd_same _ _ _ _ Th). cbn [tls made]. eexists. split; [reflexivity|].
  rewrite <- K, <- Ho. eapply (inv_leave s vs t x m i c); eauto; cbn; try congruence.
  - rewrite upd_upd. unfold Context_Proofs.thread_of, maker_of. cbn. rewrite K, Ho. reflexivity.
  - rewrite !upd_length. reflexivity.
  - intros n N. rewrite !nth_error_upd_neq by congruence. reflexivity.
  - unfold shape. cbn. split; [reflexivity|]. left. split; [exact K|congruence].
  - intros n E. assert (n = o) as -> by congruence. rewrite upd_upd. rewrite (nth_upd_same _ _ _ _ R1). unfold count. cbn. rewrite K. reflexivity.
Qed.
End Calls.
