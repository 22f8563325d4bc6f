(** Thread contexts: what the threads see and what is released. *)
Require Import Coq.Lists.List Coq.Bool.Bool Coq.Arith.Arith Coq.Sorting.Permutation Coq.micromega.Lia.
Require Import Verif.Base Verif.Pool_Model Verif.Pool_Spec Verif.Pool_Proofs Verif.Context_Model Verif.Context_Spec.
Import ListNotations.

Section Proofs.
Variables key obj : Type.
Variable keq : key -> key -> bool.
Variable same : obj -> obj -> bool.
Variable fin : obj -> list obj.
Local Notation op := (op key obj).
Local Notation entries := (entries key obj).
Local Notation state := (state key obj).
Local Notation view := (view key obj).
Local Notation finc := (fun (c : unit) x => (c, fin x)).

(** ** Pools *)
Definition pool_ok (d : nat) (p : pools unit obj) : Prop :=
  exists k, shows p k /\ length (outer k) = d /\ last (inner k :: outer k) [] = [] /\ done k = [].
Lemma pool_start : pool_ok 0 (start tt).
Proof. exists (mkK [] [] tt []). repeat split. Qed.
Lemma empties_fins : forall q c ev c', empties finc c q ev c' -> map snd ev = map fin (map fst ev).
Proof. intros q c ev c' H. induction H as [|c x q c1 l ev c2 E H IH]; [reflexivity|]. injection E as <- <-. cbn [map fst snd]. rewrite IH. reflexivity. Qed.
Lemma empties_balance : forall q c ev c', empties finc c q ev c' -> map fst ev = q ++ concat (map fin (map fst ev)).
Proof. intros q c ev c' H. rewrite <- (empties_fins _ _ _ _ H). exact (empties_releases _ _ _ _ _ _ _ H). Qed.
Definition autos (a : act obj) : list obj := match a with Auto x => [x] | _ => [] end.
Definition depth_next (d : nat) (a : act obj) : option nat :=
  match a with Auto _ => if 1 <=? d then Some d else None | Push => if d <? 8 then Some (S d) else None | Pop => match d with O => None | S d' => Some d' end | Drain => if d <? 8 then Some d else None end.
Lemma pool_call_ok : forall fuel d p a d', pool_ok d p -> depth_next d a = Some d' ->
  call (rel obj fin) fuel p a = NoFuel \/
  exists p', call (rel obj fin) fuel p a = Ok p' /\ pool_ok d' (forget p') /\
    Permutation (objs p ++ autos a ++ concat (map fin (Pool_Model.released p'))) (Pool_Model.released p' ++ objs p').
Proof.
  intros fuel d p a d' (k & Sh & Ld & Bt & Dn) Hd.
  assert (depth_ok obj (length (outer k)) a = Some d') as Hd'.
  { rewrite Ld. destruct a; cbn [depth_next depth_ok] in *; auto. destruct (1 <=? d); congruence. }
  destruct (call_ok unit obj finc fuel p k a d' Sh Hd') as [N|(p' & k' & C & D & Sh' & L')]; [left; exact N|right].
  exists p'. split; [exact C|]. destruct Sh' as (S1 & S2 & S3 & S4). destruct Sh as (T1 & T2 & T3 & T4). split.
  - exists (mkK (inner k') (outer k') (Pool_Spec.state k') []). cbn [inner outer Pool_Spec.state done]. split; [|split; [exact L'|split; [|reflexivity]]].
    + unfold shows, forget. cbn [objs marks user Pool_Model.released inner outer Pool_Spec.state done]. auto.
    + destruct D as [q o c dn x|q o c dn|q p0 o c dn ev c' E|q o c dn ev c' E]; cbn [inner outer length] in *.
      * destruct o as [|o1 o]; [cbn in Ld; subst d; cbn [depth_next] in Hd; discriminate Hd|]. exact Bt.
      * exact Bt.
      * exact Bt.
      * destruct o as [|o1 o]; [reflexivity|exact Bt].
  - rewrite S4, S1, T1. destruct D as [q o c dn x|q o c dn|q p0 o c dn ev c' E|q o c dn ev c' E]; cbn [inner outer done autos rev] in *; rewrite ?Dn; clear T4; subst dn; cbn [app concat map].
    + rewrite <- app_assoc. reflexivity.
    + rewrite concat_app. cbn [concat]. rewrite !app_nil_r. reflexivity.
    + rewrite concat_app. cbn [concat]. rewrite app_nil_r. rewrite (empties_balance _ _ _ _ E) at 2. rewrite <- app_assoc. rewrite (Permutation_app_comm (concat (rev o) ++ p0)). rewrite <- app_assoc. reflexivity.
    + rewrite app_nil_r. rewrite (empties_balance _ _ _ _ E) at 2. rewrite <- app_assoc. rewrite (Permutation_app_comm (concat (rev o))). rewrite <- app_assoc. reflexivity.
Qed.
Lemma pool_at_0 : forall p, pool_ok 0 p -> marks p = [] /\ objs p = [].
Proof.
  intros p (k & (S1 & S2 & _) & L & B & _). destruct (outer k) as [|o1 o] eqn:E; [|discriminate L]. rewrite S2, S1. cbn in *. rewrite B. auto.
Qed.

(** ** The invariant *)
Record pv : Type := mkPV { kd : kind; vw : view; ci : option nat; oi : option nat; past : list nat }.
Definition maker_of (x : pv) : maker := match kd x with KMain => Main | KDuck => Duck (match oi x with Some o => o | None => 0 end) | KOther => Other end.
Definition phase_in (v : view) : phase := match v with VWaits => Waits | VNone | VHas _ _ => Runs | VGone => Gone end.
Definition thread_of (x : pv) : thread := mkT (ci x) (maker_of x) (phase_in (vw x)).
Definition count (x : pv) : nat := match kd x, vw x with KDuck, VHas _ _ => 2 | _, VGone => 0 | _, _ => 1 end.
Definition shape (x : pv) : Prop :=
  match vw x with
  | VWaits => kd x = KDuck /\ ci x = None /\ oi x <> None
  | VNone => kd x = KOther /\ ci x = None /\ oi x = None
  | VHas _ _ => ci x <> None /\ (kd x <> KOther -> oi x <> None)
  | VGone => ci x = None /\ (kd x = KDuck /\ oi x <> None \/ kd x = KOther /\ oi x = None)
  end.
Definition ctx_ok (x : pv) (c : ctx key obj) : Prop :=
  match vw x with VHas d m => entries_of c = m /\ thr c = oi x /\ pool_ok d (pool c) | _ => False end.
Definition thread_ok (s : state) (x : pv) : Prop :=
  shape x /\ (forall i, ci x = Some i -> exists c, nth_error (ctxs s) i = Some (Live c) /\ ctx_ok x c) /\
  (forall o, oi x = Some o -> nth_error (refs s) o = Some (count x) /\ In o (past x)) /\ Forall (fun o => o < length (refs s)) (past x).
Definition balanced (s : state) : Prop := Permutation (taken s) (released s ++ held s).
Record inv (s : state) (vs : list pv) : Prop := mkInv {
  i_threads : threads s = map thread_of vs;
  i_ok : forall t x, nth_error vs t = Some x -> thread_ok s x;
  i_ci : forall t t' x x' i, nth_error vs t = Some x -> nth_error vs t' = Some x' -> ci x = Some i -> ci x' = Some i -> t = t';
  i_past : forall t t' x x' o, nth_error vs t = Some x -> nth_error vs t' = Some x' -> In o (past x) -> In o (past x') -> t = t';
  i_own : forall i c, nth_error (ctxs s) i = Some (Live c) -> exists t x, nth_error vs t = Some x /\ ci x = Some i;
  i_bal : balanced s;
  i_main : exists d m, nth_error vs 0 = Some (mkPV KMain (VHas d m) (Some 0) (Some 0) [0]);
  i_kinds : forall t x, nth_error vs t = Some x -> kd x = KMain -> t = 0
}.
Lemma map_upd : forall {A B} (f : A -> B) (l : list A) n a, map f (upd l n a) = upd (map f l) n (f a).
Proof. induction l as [|x l IH]; intros [|n] a; cbn; auto. rewrite IH. reflexivity. Qed.
Lemma upd_self : forall {A} (l : list A) n a, nth_error l n = Some a -> upd l n a = l.
Proof. induction l as [|x l IH]; intros [|n] a H; cbn in *; try congruence. rewrite IH; auto. Qed.
Lemma upd_upd : forall {A} (l : list A) n a b, upd (upd l n a) n b = upd l n b.
Proof. induction l as [|x l IH]; intros [|n] a b; cbn; auto. rewrite IH. reflexivity. Qed.
Lemma nth_upd_same : forall {A} (l : list A) n a x, nth_error l n = Some x -> nth_error (upd l n a) n = Some a.
Proof. intros A l n a x H. apply nth_error_upd_eq. apply nth_error_Some. congruence. Qed.

(** One thread changes itself, its own context and its own object. *)
Lemma inv_update : forall s vs t x s' x', inv s vs -> nth_error vs t = Some x ->
  threads s' = upd (threads s) t (thread_of x') ->
  kd x' = kd x ->
  (forall j, ci x <> Some j -> j < length (ctxs s) -> nth_error (ctxs s') j = nth_error (ctxs s) j) ->
  (forall o, oi x <> Some o -> o < length (refs s) -> nth_error (refs s') o = nth_error (refs s) o) ->
  length (refs s) <= length (refs s') ->
  (ci x' = ci x \/ ci x' = None \/ ci x' = Some (length (ctxs s))) ->
  (forall o, In o (past x') -> In o (past x) \/ length (refs s) <= o) ->
  thread_ok s' x' ->
  (forall j c, nth_error (ctxs s') j = Some (Live c) -> ci x' = Some j \/ (ci x <> Some j /\ j < length (ctxs s))) ->
  balanced s' ->
  (kd x = KMain -> ci x' = ci x /\ oi x' = oi x /\ past x' = past x /\ exists d m, vw x' = VHas d m) ->
  inv s' (upd vs t x').
Proof.
  intros s vs t x s' x' I Hx Ht Hk Hc Hr Hl Hci Hp Hok Hown Hb Hmain.
  pose proof (nth_upd_same vs t x' x Hx) as Hx'.
  assert (forall u y, u <> t -> (nth_error (upd vs t x') u = Some y <-> nth_error vs u = Some y)) as Other. { intros u y N. rewrite nth_error_upd_neq by congruence. tauto. }
  assert (forall u y, nth_error (upd vs t x') u = Some y -> (u = t /\ y = x') \/ (u <> t /\ nth_error vs u = Some y)) as Cases.
  { intros u y H. destruct (Nat.eq_dec u t) as [->|N]; [left; split; congruence|right; split; [exact N|apply Other; auto]]. }
  assert (forall u y j, nth_error vs u = Some y -> ci y = Some j -> j < length (ctxs s)) as Cb.
  { intros u y j Hu Hj. destruct (i_ok _ _ I _ _ Hu) as (_ & C & _). destruct (C j Hj) as (c & E & _). apply nth_error_Some. congruence. }
  constructor.
  - rewrite Ht, (i_threads _ _ I), map_upd. reflexivity.
  - intros u y Hu. destruct (Cases u y Hu) as [[-> ->]|[N Hu']]; [exact Hok|]. destruct (i_ok _ _ I _ _ Hu') as (A & B & C & D). split; [exact A|]. split; [|split].
    + intros j Hj. rewrite Hc; [apply B, Hj| |eapply Cb; eauto]. intros E. apply N. eapply (i_ci _ _ I); eauto.
    + intros o Ho. destruct (C o Ho) as [E1 E2]. split; [|exact E2]. rewrite Hr; [exact E1| |apply nth_error_Some; congruence].
      intros E. apply N. destruct (i_ok _ _ I _ _ Hx) as (_ & _ & C' & _). destruct (C' o E) as [_ E3]. eapply (i_past _ _ I); eauto.
    + eapply Forall_impl; [|exact D]. cbn. intros; lia.
  - intros u u' y y' j Hu Hu' E E'. destruct (Cases u y Hu) as [[-> ->]|[N Hv]]; destruct (Cases u' y' Hu') as [[-> ->]|[N' Hv']]; auto.
    + destruct Hci as [Hci|[Hci|Hci]]; rewrite Hci in E; [eapply (i_ci _ _ I); eauto|discriminate E|]. injection E as <-. pose proof (Cb _ _ _ Hv' E'). lia.
    + destruct Hci as [Hci|[Hci|Hci]]; rewrite Hci in E'; [eapply (i_ci _ _ I); eauto|discriminate E'|]. injection E' as <-. pose proof (Cb _ _ _ Hv E). lia.
    + eapply (i_ci _ _ I); eauto.
  - assert (forall u y o, nth_error vs u = Some y -> In o (past y) -> o < length (refs s)) as Pb.
    { intros u y o Hu Ho. destruct (i_ok _ _ I _ _ Hu) as (_ & _ & _ & D). rewrite Forall_forall in D. auto. }
    intros u u' y y' o Hu Hu' E E'. destruct (Cases u y Hu) as [[-> ->]|[N Hv]]; destruct (Cases u' y' Hu') as [[-> ->]|[N' Hv']]; auto.
    + destruct (Hp o E) as [E1|E1]; [eapply (i_past _ _ I); eauto|]. pose proof (Pb _ _ _ Hv' E'). lia.
    + destruct (Hp o E') as [E1|E1]; [eapply (i_past _ _ I); eauto|]. pose proof (Pb _ _ _ Hv E). lia.
    + eapply (i_past _ _ I); eauto.
  - intros j c Hj. destruct (Hown j c Hj) as [E|[N L]]; [exists t, x'; auto|]. rewrite Hc in Hj by assumption. destruct (i_own _ _ I _ _ Hj) as (u & y & Hu & E).
    exists u, y. split; [|exact E]. apply Other; [|exact Hu]. intros ->. congruence.
  - exact Hb.
  - destruct (i_main _ _ I) as (d & m & M). destruct (Nat.eq_dec t 0) as [->|N].
    + assert (x = mkPV KMain (VHas d m) (Some 0) (Some 0) [0]) as -> by congruence. destruct (Hmain eq_refl) as (M1 & M2 & M3 & d' & m' & M4). exists d', m'. rewrite Hx'. f_equal.
      destruct x'; cbn in *; congruence.
    + exists d, m. rewrite nth_error_upd_neq by congruence. exact M.
  - intros u y Hu K. destruct (Cases u y Hu) as [[-> ->]|[N Hv]]; [|eapply (i_kinds _ _ I); eauto]. eapply (i_kinds _ _ I); eauto. congruence.
Qed.
(** A thread is added. *)
Lemma inv_add : forall s vs x s', inv s vs ->
  threads s' = threads s ++ [thread_of x] -> ctxs s' = ctxs s -> taken s' = taken s -> released s' = released s ->
  (forall o, o < length (refs s) -> nth_error (refs s') o = nth_error (refs s) o) -> length (refs s) <= length (refs s') ->
  ci x = None -> Forall (fun o => length (refs s) <= o) (past x) -> thread_ok s' x -> kd x <> KMain -> inv s' (vs ++ [x]).
Proof.
  intros s vs x s' I Ht Hc Htk Hre Hr Hl Hci Hp Hok Hk.
  assert (forall u y, nth_error (vs ++ [x]) u = Some y -> nth_error vs u = Some y \/ (y = x /\ u = length vs)) as Cases.
  { intros u y H. destruct (Nat.lt_ge_cases u (length vs)) as [L|L]; [rewrite nth_error_app1 in H by lia; auto|]. rewrite nth_error_app2 in H by lia.
    destruct (u - length vs) as [|n] eqn:E; cbn in H; [right; split; [congruence|lia]|destruct n; discriminate H]. }
  assert (forall u y, nth_error vs u = Some y -> nth_error (vs ++ [x]) u = Some y) as Old. { intros u y H. rewrite nth_error_app1; [exact H|]. apply nth_error_Some. congruence. }
  constructor.
  - rewrite Ht, (i_threads _ _ I), map_app. reflexivity.
  - intros u y Hu. destruct (Cases u y Hu) as [Hv|[-> ->]]; [|exact Hok]. destruct (i_ok _ _ I _ _ Hv) as (A & B & C & D). split; [exact A|]. rewrite Hc. split; [exact B|]. split.
    + intros o Ho. destruct (C o Ho) as [E1 E2]. split; [|exact E2]. rewrite Hr; [exact E1|apply nth_error_Some; congruence].
    + eapply Forall_impl; [|exact D]. cbn. intros; lia.
  - intros u u' y y' j Hu Hu' E E'. destruct (Cases u y Hu) as [Hv|[-> ->]]; [|congruence]. destruct (Cases u' y' Hu') as [Hv'|[-> ->]]; [|congruence]. eapply (i_ci _ _ I); eauto.
  - assert (forall u y o, nth_error vs u = Some y -> In o (past y) -> o < length (refs s)) as Pb.
    { intros u y o Hu Ho. destruct (i_ok _ _ I _ _ Hu) as (_ & _ & _ & D). rewrite Forall_forall in D. auto. }
    rewrite Forall_forall in Hp. intros u u' y y' o Hu Hu' E E'. destruct (Cases u y Hu) as [Hv|[-> ->]]; destruct (Cases u' y' Hu') as [Hv'|[-> ->]]; auto.
    + eapply (i_past _ _ I); eauto.
    + pose proof (Pb _ _ _ Hv E). pose proof (Hp _ E'). lia.
    + pose proof (Pb _ _ _ Hv' E'). pose proof (Hp _ E). lia.
  - intros j c Hj. rewrite Hc in Hj. destruct (i_own _ _ I _ _ Hj) as (u & y & Hu & E). exists u, y. auto.
  - unfold balanced, held. rewrite Hc, Htk, Hre. exact (i_bal _ _ I).
  - destruct (i_main _ _ I) as (d & m & M). exists d, m. auto.
  - intros u y Hu K. destruct (Cases u y Hu) as [Hv|[-> ->]]; [eapply (i_kinds _ _ I); eauto|congruence].
Qed.

(** ** The references held *)
Lemma held_split : forall (cs : list (cell key obj)) i c, nth_error cs i = Some c ->
  exists rest, Permutation (flat_map cell_objs cs) (cell_objs c ++ rest) /\ forall c', Permutation (flat_map cell_objs (upd cs i c')) (cell_objs c' ++ rest).
Proof.
  induction cs as [|a cs IH]; intros [|i] c H; cbn in H; try discriminate.
  - injection H as ->. exists (flat_map cell_objs cs). split; [reflexivity|]. intros c'. reflexivity.
  - destruct (IH i c H) as (rest & P & Q). exists (cell_objs a ++ rest). cbn [flat_map upd]. split.
    + rewrite P, !app_assoc, (Permutation_app_comm (cell_objs a)). reflexivity.
    + intros c'. rewrite Q, !app_assoc, (Permutation_app_comm (cell_objs a)). reflexivity.
Qed.
(** What changes in one context balances. *)
Lemma balance_change : forall s s' i c c' tk re, balanced s -> nth_error (ctxs s) i = Some c -> ctxs s' = upd (ctxs s) i c' -> taken s' = taken s ++ tk -> released s' = released s ++ re ->
  Permutation (cell_objs c ++ tk) (re ++ cell_objs c') -> balanced s'.
Proof.
  intros s s' i c c' tk re B Hc H1 H2 H3 P. unfold balanced, held in *. rewrite H1, H2, H3. destruct (held_split _ _ _ Hc) as (rest & P1 & P2).
  rewrite B, P1, (P2 c'). rewrite <- !app_assoc. apply Permutation_app_head. rewrite (Permutation_app_comm rest tk), !app_assoc. rewrite P. reflexivity.
Qed.
Lemma balance_add : forall s s' c, balanced s -> ctxs s' = ctxs s ++ [c] -> cell_objs c = [] -> taken s' = taken s -> released s' = released s -> balanced s'.
Proof. intros s s' c B H1 H2 H3 H4. unfold balanced, held in *. rewrite H1, H3, H4, flat_map_app. cbn [flat_map]. rewrite H2, !app_nil_r. exact B. Qed.
End Proofs.
