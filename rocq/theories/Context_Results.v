(** Thread contexts: histories. *)
Require Import Coq.Lists.List Coq.Bool.Bool Coq.Arith.Arith Coq.Sorting.Permutation Coq.micromega.Lia.
Require Verif.HashTable_Spec.
Require Import Verif.Base Verif.Pool_Model Verif.Pool_Spec Verif.Pool_Proofs Verif.Context_Model Verif.Context_Spec Verif.Context_Proofs Verif.Context_Steps Verif.Context_Calls.
Import ListNotations.

Section Results.
Variables key obj : Type.
Variable keq : key -> key -> bool.
Variable same : obj -> obj -> bool.
Variable fin : obj -> list obj.
Local Notation op := (op key obj).
Local Notation entries := (entries key obj).
Local Notation state := (state key obj).
Local Notation view := (view key obj).
Local Notation pv := (pv key obj).
Local Notation mkPV := (mkPV key obj).
Local Notation kd := (kd key obj).
Local Notation vw := (vw key obj).
Local Notation ci := (ci key obj).
Local Notation oi := (oi key obj).
Local Notation past := (past key obj).
Local Notation inv := (inv key obj).
Local Notation thread_of := (thread_of key obj).
Local Notation with_view := (with_view key obj).
Local Notation Vstep := (vstep key obj keq same fin).
Local Notation next := (next key obj keq).
Local Notation answered := (answered key obj keq).
Local Notation keeps := (keeps key obj).

Lemma next_ok : forall (s : state) vs t x o v' s' a x' new, inv s' (upd vs t x' ++ new) -> kd x' = kd x -> vw x' = v' -> map (fun y => (kd y, vw y)) new = made_by key obj o ->
  answered t x x' o a -> keeps x x' o -> next vs t x o v' (Ok (s', a)).
Proof. intros. right. exists s', a, x', new. auto 10. Qed.
Lemma next_view : forall (s : state) vs t x o v s' a, inv s' (upd vs t (with_view x v)) -> made_by key obj o = [] -> answered t x (with_view x v) o a -> next vs t x o v (Ok (s', a)).
Proof. intros s vs t x o v s' a I M A. apply (next_ok s) with (with_view x v) []; auto; [rewrite app_nil_r; exact I|apply keeps_view]. Qed.
Lemma with_same : forall x : pv, with_view x (vw x) = x.
Proof. intros [a b c d e]. reflexivity. Qed.

Lemma step_ok : forall fuel s vs t x o v', inv s vs -> nth_error vs t = Some x -> Vstep (kd x) (vw x) o = Some v' -> next vs t x o v' (step key obj keq same fin fuel s (t, o)).
Proof.
  intros fuel s vs t x o v' I Hx Hs. unfold step. cbn [fst snd]. rewrite (thread_at _ _ _ _ _ _ I Hx). cbn [Context_Proofs.thread_of phase_of made].
  pose proof (i_ok _ _ _ _ I _ _ Hx) as (B1 & B2 & B3 & B4). unfold shape in B1.
  destruct (vw x) as [| |d m|] eqn:Hv; cbn [phase_in].
  - (* waits *)
    destruct o; cbn [vstep] in Hs; try discriminate Hs. injection Hs as <-. destruct B1 as (K & C & O). unfold maker_of. rewrite K. destruct (oi x) as [n|] eqn:Eo; [|congruence].
    destruct (begins_ok key obj fin fuel s vs t x n I Hx Hv Eo) as [N|(s' & E & I')]; [rewrite N; left; reflexivity|]. rewrite E. cbn [obind].
    apply (next_ok s) with (mkPV KDuck (VHas 1 []) (Some (length (ctxs s))) (Some n) (past x)) []; cbn; auto; [rewrite app_nil_r; exact I'|]. split; cbn; [apply incl_refl|]. intros; congruence.
  - (* no context *)
    destruct B1 as (K & C & O).
    destruct o as [| | | |b| | |k v|k|k|a| |]; cbn [vstep] in Hs; try discriminate Hs; injection Hs as <-; cbn [act_of]; unfold Context_Proofs.thread_of; cbn [made tls phase_of].
    + apply (next_ok s) with x [mkPV KDuck VWaits None (Some (length (refs s))) [length (refs s)]]; cbn; auto; [rewrite (nth_same _ _ _ _ _ Hx); apply add_new; exact I|split; [apply incl_refl|auto]].
    + apply (next_ok s) with x [mkPV KOther VNone None None []]; cbn; auto; [rewrite (nth_same _ _ _ _ _ Hx); apply add_other; exact I|split; [apply incl_refl|auto]].
    + apply (next_ok s) with (mkPV KOther (VHas 0 []) (Some (length (ctxs s))) None (past x)) []; cbn; auto; [rewrite app_nil_r; apply alloc_ok; assumption|]. split; cbn; [apply incl_refl|]. intros; congruence.
    + unfold maker_of. rewrite K. destruct (ends_none key obj fin s vs t x I Hx Hv) as (s' & E & I'). rewrite E. cbn [obind].
      apply (next_ok s) with (mkPV KOther VGone None None (past x)) []; cbn; auto; [rewrite app_nil_r; exact I'|]. split; cbn; [apply incl_refl|]. intros; congruence.
  - (* a context *)
    destruct (has_ctx _ _ _ _ _ _ _ _ I Hx Hv) as (i & c & H1 & H2 & H3 & H4 & H5 & H6).
    destruct o as [| | | |b| | |k v|k|k|a| |]; cbn [vstep] in Hs; try discriminate Hs; cbn [act_of]; unfold Context_Proofs.thread_of; cbn [made tls phase_of].
    + injection Hs as <-. apply (next_ok s) with x [mkPV KDuck VWaits None (Some (length (refs s))) [length (refs s)]]; cbn; auto; [rewrite (nth_same _ _ _ _ _ Hx); apply add_new; exact I|split; [apply incl_refl|auto]].
    + injection Hs as <-. apply (next_ok s) with x [mkPV KOther VNone None None []]; cbn; auto; [rewrite (nth_same _ _ _ _ _ Hx); apply add_other; exact I|split; [apply incl_refl|auto]].
    + (* free *)
      destruct b; [|discriminate Hs]. destruct (kd x) eqn:K; try discriminate Hs. destruct ((d =? 0) && quiet key obj fin m) eqn:Q; [|discriminate Hs]. injection Hs as <-.
      apply andb_true_iff in Q. destruct Q as [Q1 Q2]. apply Nat.eqb_eq in Q1. subst d. rewrite H1. cbn [tls].
      destruct (frees key obj fin s vs t x m i I Hx Hv K Q2 H1) as (s' & E & I'). rewrite E. cbn [obind].
      apply (next_ok s) with (mkPV KOther VNone None None (past x)) []; cbn; auto; [rewrite app_nil_r; exact I'|]. split; cbn; [apply incl_refl|]. intros n _ N _. destruct (N true eq_refl).
    + (* current *)
      injection Hs as <-. destruct (current_thread_inv key obj s vs t x d m I Hx Hv) as (s' & n & x' & E & I' & A1 & A2 & A3 & A4 & A5 & A6). rewrite E. cbn [obind fst snd].
      apply (next_ok s) with x' []; cbn; auto; [rewrite app_nil_r; exact I'|congruence|exists n; auto|]. split; [exact A5|]. intros z Hz _ _. rewrite A3. f_equal. auto.
    + (* is main *)
      injection Hs as <-. destruct (current_thread_inv key obj s vs t x d m I Hx Hv) as (s' & n & x' & E & I' & A1 & A2 & A3 & A4 & A5 & A6). rewrite E. cbn [obind fst snd].
      destruct (i_main _ _ _ _ I') as (d0 & m0 & M). destruct (has_ctx _ _ _ _ _ _ _ _ I' M eq_refl) as (i0 & c0 & G1 & G2 & G3 & G4 & G5 & G6). cbn in G1, G4. injection G1 as <-. rewrite G2, G4.
      assert ((n =? 0) = (t =? 0)) as ->.
      { pose proof (nth_upd_same vs t x' x Hx) as Hx'. destruct (i_ok _ _ _ _ I' _ _ Hx') as (_ & _ & C3 & _). destruct (C3 n A3) as [_ Pn].
        destruct (Nat.eqb_spec t 0) as [->|N].
        - rewrite M in Hx'. injection Hx' as <-. cbn in A3. injection A3 as <-. reflexivity.
        - apply Nat.eqb_neq. intros ->. apply N. eapply (i_past _ _ _ _ I' t 0 _ _ 0); eauto. left. reflexivity. }
      apply (next_ok s) with x' []; cbn; auto; [rewrite app_nil_r; exact I'|congruence|]. split; [exact A5|]. intros z Hz _ _. rewrite A3. f_equal. auto.
    + (* put *)
      destruct (drops key obj keq fin d m k) eqn:Dr; [|discriminate Hs]. injection Hs as <-. rewrite H6. cbn [obind fst snd]. rewrite H3. destruct (lookup key obj keq m k) as [w|] eqn:Lk.
      * destruct (same w v); [rewrite <- Hv; apply (next_view s); cbn; auto; rewrite with_same, (nth_same _ _ _ _ _ Hx); exact I|].
        destruct (release_ok key obj fin (log (set_ctx s i (Live (mkC (thr c) (Some (replace key obj keq m k v)) (pool c)))) [v] []) t w i (mkC (thr c) (Some (replace key obj keq m k v)) (pool c))) as (s' & p' & R1 & R2 & R3 & R4 & R5 & R6 & R7 & R8).
        { rewrite current_log. eapply current_set; eauto. }
        { cbn. eapply pool_released; eauto. }
        rewrite R1. cbn [obind]. cbn [thr dict pool] in *. cbn in R2, R3, R4, R5, R6. rewrite upd_upd in R2. rewrite <- app_assoc in R5. rewrite app_nil_r in R6.
        apply (next_view s); cbn; auto.
        eapply (inv_ctx key obj s vs t x d m i c s' (mkC (thr c) (Some (replace key obj keq m k v)) p') d _ ([v] ++ fin w) [w]); eauto.
        { apply R8; [exact H5|]. eapply drops_spec; eauto. }
        unfold cell_objs. cbn [pool]. rewrite R7, H3. unfold entries_of. cbn [dict]. rewrite (app_assoc [w]). change ([w] ++ map snd (replace key obj keq m k v)) with (w :: map snd (replace key obj keq m k v)). rewrite <- (lookup_replace key obj keq m k w v Lk).
        rewrite <- app_assoc. rewrite <- (app_comm_cons (map snd m)), Permutation_middle. apply Permutation_app_head. cbn [app]. rewrite <- Permutation_middle. reflexivity.
      * apply (next_view s); cbn; auto.
        eapply (inv_ctx key obj s vs t x d m i c _ (mkC (thr c) (Some (m ++ [(k, v)])) (pool c)) d _ [v] []); eauto; cbn; try reflexivity.
        unfold cell_objs. rewrite H3, map_app. unfold entries_of. cbn. rewrite <- !app_assoc. apply Permutation_app_head. apply Permutation_app_comm.
    + (* get *)
      injection Hs as <-. rewrite H6. cbn [obind fst snd]. rewrite H3. apply (next_view s); cbn; eauto.
      eapply (inv_ctx key obj s vs t x d m i c _ (mkC (thr c) (Some m) (pool c)) d _ [] []); eauto; cbn; try (rewrite app_nil_r; reflexivity); try reflexivity.
      unfold cell_objs. rewrite H3. unfold entries_of. cbn. rewrite app_nil_r. reflexivity.
    + (* remove *)
      destruct (drops key obj keq fin d m k) eqn:Dr; [|discriminate Hs]. injection Hs as <-. rewrite H6. cbn [obind fst snd]. rewrite H3. destruct (lookup key obj keq m k) as [w|] eqn:Lk.
      * destruct (release_ok key obj fin (set_ctx s i (Live (mkC (thr c) (Some (remove key obj keq m k)) (pool c)))) t w i (mkC (thr c) (Some (remove key obj keq m k)) (pool c))) as (s' & p' & R1 & R2 & R3 & R4 & R5 & R6 & R7 & R8).
        { eapply current_set; eauto. }
        { cbn. eapply pool_released; eauto. }
        rewrite R1. cbn [obind]. cbn [thr dict pool] in *. cbn in R2, R3, R4, R5, R6. rewrite upd_upd in R2.
        apply (next_view s); cbn; auto.
        eapply (inv_ctx key obj s vs t x d m i c s' (mkC (thr c) (Some (remove key obj keq m k)) p') d _ (fin w) [w]); eauto.
        { apply R8; [exact H5|]. eapply drops_spec; eauto. }
        unfold cell_objs. cbn [pool]. rewrite R7, H3. unfold entries_of. cbn [dict]. rewrite (lookup_remove key obj keq m k w Lk). cbn [app]. rewrite <- !app_assoc. reflexivity.
      * cbn [obind]. rewrite <- Hv. apply (next_view s); cbn; auto. rewrite with_same, (nth_same _ _ _ _ _ Hx). exact I.
    + (* pools *)
      assert (exists d', depth_next obj d a = Some d' /\ v' = VHas d' m) as (d' & Hd & ->).
      { destruct a; cbn [depth_next]; [destruct (1 <=? d)|destruct (d <? 8)|destruct d|destruct (d <? 8)]; try discriminate Hs; injection Hs as <-; eauto. }
      destruct (pool_call_inv key obj fin fuel s vs t x d m a d' I Hx Hv Hd) as [N|(s' & E & I')]; [rewrite N; left; reflexivity|]. rewrite E. cbn [obind]. apply (next_view s); cbn; auto.
    + (* return *)
      unfold maker_of. destruct (kd x) eqn:K.
      * injection Hs as <-. rewrite <- Hv. apply (next_view s); cbn; auto. rewrite with_same, (nth_same _ _ _ _ _ Hx). exact I.
      * destruct ((d =? 1) && quiet key obj fin m) eqn:Q; [|discriminate Hs]. injection Hs as <-. apply andb_true_iff in Q. destruct Q as [Q1 Q2]. apply Nat.eqb_eq in Q1. subst d.
        destruct (pool_call_inv key obj fin fuel s vs t x 1 m Pop 0 I Hx Hv eq_refl) as [N|(s1 & E & I1)]; [rewrite N; left; reflexivity|]. rewrite E. cbn [obind tls]. rewrite H1.
        destruct B1 as [_ B1]. destruct (oi x) as [n|] eqn:Eo; [|destruct B1; auto; discriminate].
        destruct (returns key obj fin s1 _ t _ m i n I1 (nth_upd_same _ _ _ _ Hx) eq_refl K Q2 H1 Eo) as (s' & E' & I').
        destruct (finalize key obj fin (set_current s1 t None) t i) as [s2| | |]; try discriminate E'. cbn [obind] in *. destruct (release_thread s2 n) as [s3| | |]; try discriminate E'. cbn [obind] in *. rewrite E'. cbn [obind].
        rewrite upd_upd in I'. apply (next_ok s) with (mkPV KDuck VGone None (Some n) (past x)) []; cbn; auto; [rewrite app_nil_r; exact I'|]. split; cbn; [apply incl_refl|]. intros; congruence.
      * destruct ((d =? 0) && quiet key obj fin m) eqn:Q; [|discriminate Hs]. injection Hs as <-. apply andb_true_iff in Q. destruct Q as [Q1 Q2]. apply Nat.eqb_eq in Q1. subst d.
        destruct (ends_other key obj fin s vs t x m I Hx Hv K Q2) as (s' & E & I'). rewrite E. cbn [obind].
        apply (next_ok s) with (mkPV KOther VGone None None (past x)) []; cbn; auto; [rewrite app_nil_r; exact I'|]. split; cbn; [apply incl_refl|]. intros; congruence.
    + (* exit *)
      unfold maker_of. destruct (kd x) eqn:K.
      * injection Hs as <-. rewrite <- Hv. apply (next_view s); cbn; auto. rewrite with_same, (nth_same _ _ _ _ _ Hx). exact I.
      * discriminate Hs.
      * destruct ((d =? 0) && quiet key obj fin m) eqn:Q; [|discriminate Hs]. injection Hs as <-. apply andb_true_iff in Q. destruct Q as [Q1 Q2]. apply Nat.eqb_eq in Q1. subst d.
        destruct (current_thread_inv key obj s vs t x 0 m I Hx Hv) as (s1 & n & x1 & E & I1 & A1 & A2 & A3 & A4 & A5 & A6). rewrite E. cbn [obind fst].
        destruct (ends_other key obj fin s1 _ t x1 m I1 (nth_upd_same _ _ _ _ Hx) ltac:(congruence) ltac:(congruence) Q2) as (s' & E' & I'). rewrite E'. cbn [obind]. rewrite upd_upd in I'.
        apply (next_ok s) with (mkPV KOther VGone None None (past x1)) []; cbn; auto; [rewrite app_nil_r; exact I'|]. split; cbn; [exact A5|]. intros; congruence.
  - discriminate Hs.
Qed.

(** ** Dictionaries as maps *)
Hypothesis keq_eq : HashTable_Spec.equivalence key keq.
Hypothesis same_eq : forall a b, same a b = true -> a = b.
Local Notation look := (lookup key obj keq).
Local Notation mlook := (mlookup key obj keq).
Fixpoint unique (m : entries) : Prop := match m with [] => True | (k, _) :: m' => look m' k = None /\ unique m' end.
Definition agree (m m' : entries) : Prop := (forall k, look m k = mlook m' k) /\ unique m.
Lemma keq_sym : forall a b, keq a b = keq b a.
Proof. destruct keq_eq as (_ & Sy & _). exact Sy. Qed.
Lemma keq_trans : forall a b c, keq a b = true -> keq a c = keq b c.
Proof.
  destruct keq_eq as (_ & Sy & Tr). intros a b c H. destruct (keq b c) eqn:E; [eapply Tr; eauto|]. destruct (keq a c) eqn:E'; [|reflexivity]. rewrite <- E. symmetry. apply (Tr b a c); [rewrite Sy; exact H|exact E'].
Qed.
Lemma mlook_filter : forall m k j, mlook (filter (fun e => negb (keq (fst e) k)) m) j = if keq k j then None else mlook m j.
Proof.
  induction m as [|[a x] m IH]; intros k j; cbn [filter fst]; [unfold mlookup; cbn; destruct (keq k j); reflexivity|].
  destruct (keq a k) eqn:E; cbn [negb].
  - rewrite IH. destruct (keq k j) eqn:E'; [reflexivity|]. unfold mlookup. cbn [List.find fst]. rewrite (keq_trans _ _ j E), E'. reflexivity.
  - unfold mlookup in *. cbn [List.find fst]. destruct (keq a j) eqn:E'; [|apply IH]. destruct (keq k j) eqn:E''; [|reflexivity].
    rewrite (keq_trans a j k E'), keq_sym, E'' in E. discriminate E.
Qed.
Lemma mlook_put : forall m k v j, mlook (mput key obj keq m k v) j = if keq k j then Some v else mlook m j.
Proof. intros m k v j. unfold mput. assert (forall e (l : entries), mlook (e :: l) j = if keq (fst e) j then Some (snd e) else mlook l j) as H by (intros e l; unfold mlookup; cbn; destruct (keq (fst e) j); reflexivity). rewrite H. cbn [fst snd]. rewrite mlook_filter. destruct (keq k j); reflexivity. Qed.
Lemma look_keq : forall m a b, keq a b = true -> look m a = look m b.
Proof. induction m as [|[k x] m IH]; intros a b H; [reflexivity|]. cbn [lookup]. rewrite (keq_sym k a), (keq_trans _ _ k H), (keq_sym b k), (IH _ _ H). reflexivity. Qed.
Lemma look_app : forall m k v j, look m k = None -> look (m ++ [(k, v)]) j = if keq k j then Some v else look m j.
Proof.
  induction m as [|[a x] m IH]; intros k v j H; cbn [app lookup] in *; [reflexivity|]. destruct (keq a k) eqn:E; [discriminate H|]. rewrite IH by exact H.
  destruct (keq a j) eqn:E'; [|reflexivity]. destruct (keq k j) eqn:E''; [|reflexivity]. rewrite keq_sym in E''. rewrite <- (keq_trans _ _ k E') in E''. congruence.
Qed.
Lemma unique_app : forall m k v, look m k = None -> unique m -> unique (m ++ [(k, v)]).
Proof.
  induction m as [|[a x] m IH]; intros k v H U; cbn [app lookup unique] in *; [auto|]. destruct (keq a k) eqn:E; [discriminate H|]. destruct U as [U1 U2]. split; [|auto].
  rewrite look_app by exact H. rewrite keq_sym, E. exact U1.
Qed.
Lemma look_replace : forall m k v w j, look m k = Some w -> look (replace key obj keq m k v) j = if keq k j then Some v else look m j.
Proof.
  induction m as [|[a x] m IH]; intros k v w j H; cbn [replace lookup] in *; [discriminate H|]. destruct (keq a k) eqn:E; cbn [lookup].
  - rewrite (keq_trans _ _ j E). destruct (keq k j); reflexivity.
  - rewrite (IH _ _ _ _ H). destruct (keq a j) eqn:E'; [|reflexivity]. destruct (keq k j) eqn:E''; [|reflexivity]. rewrite keq_sym in E''. rewrite <- (keq_trans _ _ k E') in E''. congruence.
Qed.
Lemma unique_replace : forall m k v, unique m -> unique (replace key obj keq m k v).
Proof.
  induction m as [|[a x] m IH]; intros k v U; cbn [replace unique] in *; [auto|]. destruct (keq a k) eqn:E; cbn [unique]; [exact U|]. destruct U as [U1 U2]. split; [|auto].
  destruct (look m k) as [w|] eqn:L; [rewrite (look_replace _ _ _ _ _ L), keq_sym, E; exact U1|]. rewrite <- U1. f_equal. clear - L. induction m as [|[b y] m IHm]; cbn [replace lookup] in *; [reflexivity|]. destruct (keq b k); [discriminate L|]. f_equal. auto.
Qed.
Lemma look_remove : forall m k j, unique m -> look (remove key obj keq m k) j = if keq k j then None else look m j.
Proof.
  induction m as [|[a x] m IH]; intros k j U; cbn [remove lookup unique] in *; [destruct (keq k j); reflexivity|]. destruct U as [U1 U2]. destruct (keq a k) eqn:E; cbn [lookup].
  - rewrite (keq_trans _ _ j E). destruct (keq k j) eqn:E'; [|reflexivity]. rewrite <- (look_keq m a j); [exact U1|]. rewrite (keq_trans _ _ j E). exact E'.
  - rewrite IH by exact U2. destruct (keq a j) eqn:E'; [|reflexivity]. destruct (keq k j) eqn:E''; [|reflexivity]. rewrite keq_sym in E''. rewrite <- (keq_trans _ _ k E') in E''. congruence.
Qed.
Lemma unique_remove : forall m k, unique m -> unique (remove key obj keq m k).
Proof.
  induction m as [|[a x] m IH]; intros k U; cbn [remove unique] in *; [auto|]. destruct U as [U1 U2]. destruct (keq a k) eqn:E; cbn [unique]; [exact U2|]. split; [|auto].
  rewrite look_remove by exact U2. rewrite keq_sym, E. exact U1.
Qed.
Definition ent (v : view) : entries := match v with VHas _ m => m | _ => [] end.
(** The effect of a call on what the thread alone sees. *)
Lemma own_step : forall k v o v' m', Vstep k v o = Some v' -> agree (ent v) m' -> v' <> VGone ->
  exists m'', agree (ent v') m'' /\ forall os, own key obj keq m' (o :: os) = match o with Get q => [look (ent v) q] | _ => [] end ++ own key obj keq m'' os.
Proof.
  intros k v o v' m' Hs A NG. destruct v as [| |d m|]; [| | |discriminate Hs].
  - destruct o; cbn in Hs; try discriminate Hs. injection Hs as <-. exists m'. split; [exact A|reflexivity].
  - destruct o; cbn in Hs; try discriminate Hs; injection Hs as <-; try (exists m'; split; [exact A|reflexivity]).
  - destruct A as [A U]. cbn [ent] in *. destruct o as [| | | |b| | |x y|x|x|a| |]; cbn [vstep] in Hs; try discriminate Hs;
      try (injection Hs as <-; exists m'; split; [split; [exact A|exact U]|reflexivity]).
    + destruct b; [|discriminate Hs]. destruct k; try discriminate Hs. destruct ((d =? 0) && _); [|discriminate Hs]. injection Hs as <-. exists []. split; [split; [reflexivity|exact I]|reflexivity].
    + destruct (drops key obj keq fin d m x); [|discriminate Hs]. injection Hs as <-. exists (mput key obj keq m' x y). split; [|reflexivity]. cbn [ent]. destruct (look m x) as [w|] eqn:L.
      * destruct (same w y) eqn:Sm.
        -- apply same_eq in Sm. subst w. split; [|exact U]. intros j. rewrite mlook_put, A. destruct (keq x j) eqn:E; [|reflexivity]. rewrite <- A. rewrite <- (look_keq m x j E). exact L.
        -- split; [|apply unique_replace; exact U]. intros j. rewrite mlook_put, (look_replace _ _ _ _ _ L), A. reflexivity.
      * split; [|apply unique_app; assumption]. intros j. rewrite mlook_put, (look_app _ _ _ _ L), A. reflexivity.
    + injection Hs as <-. exists m'. split; [split; [exact A|exact U]|]. intros os. cbn [own ent app]. rewrite A. reflexivity.
    + destruct (drops key obj keq fin d m x); [|discriminate Hs]. injection Hs as <-. exists (mremove key obj keq m' x). split; [|reflexivity]. cbn [ent]. destruct (look m x) as [w|] eqn:L.
      * split; [|apply unique_remove; exact U]. intros j. unfold mremove. rewrite mlook_filter, (look_remove _ _ _ U), A. reflexivity.
      * split; [|exact U]. intros j. unfold mremove. rewrite mlook_filter, A. destruct (keq x j) eqn:E; [|reflexivity]. rewrite <- A, <- (look_keq m x j E). exact L.
    + exists m'. assert (ent v' = m) as -> by (destruct a; cbv beta iota in Hs; [destruct (1 <=? d)|destruct (d <? 8)|destruct d|destruct (d <? 8)]; try discriminate Hs; injection Hs as <-; reflexivity). split; [split; [exact A|exact U]|reflexivity].
    + destruct k; [injection Hs as <-; exists m'; split; [split; [exact A|exact U]|reflexivity]| |]; destruct (_ && _) in Hs; try discriminate Hs; injection Hs as <-; congruence.
    + destruct k; [injection Hs as <-; exists m'; split; [split; [exact A|exact U]|reflexivity]| |]; try discriminate Hs; destruct (_ && _) in Hs; try discriminate Hs; injection Hs as <-; congruence.
Qed.

(** ** Histories *)
Definition views (vs : list pv) : list (kind * view) := map (fun y => (kd y, vw y)) vs.
Definition never_frees (os : list op) : Prop := forall b, ~ In (Free b) os.
Definition report (vs vs' : list pv) (ls : list (nat * op)) (outs : list (nat * answer obj)) : Prop :=
  (forall t x, nth_error vs t = Some x -> exists x', nth_error vs' t = Some x' /\ incl (past x) (past x')) /\
  (forall t m', match nth_error vs t with Some x => vw x = VGone \/ agree (ent (vw x)) m' | None => agree [] m' end -> gets_of t outs = own key obj keq m' (ops_of t ls)) /\
  (forall t n, In (t, AThread n) outs -> exists x', nth_error vs' t = Some x' /\ In n (past x')) /\
  (forall t, never_frees (ops_of t ls) -> exists n0, (forall n, In (t, AThread n) outs -> n = n0) /\ forall x k, nth_error vs t = Some x -> oi x = Some k -> n0 = k) /\
  (forall t b, In (t, ABool b) outs -> b = (t =? 0)).
Lemma ops_here : forall t (o : op) ls, ops_of t ((t, o) :: ls) = o :: ops_of t ls.
Proof. intros. unfold ops_of. cbn. rewrite Nat.eqb_refl. reflexivity. Qed.
Lemma ops_there : forall u t (o : op) ls, u <> t -> ops_of u ((t, o) :: ls) = ops_of u ls.
Proof. intros. unfold ops_of. cbn. destruct (Nat.eqb_spec t u); [congruence|reflexivity]. Qed.
(** A thread that is gone makes no calls. *)
Lemma gone_quiet : forall ls (vs : list (kind * view)) t k, nth_error vs t = Some (k, VGone) -> proper key obj keq same fin vs ls -> ops_of t ls = [].
Proof.
  induction ls as [|[u o] ls IH]; intros vs t k H P; [reflexivity|]. cbn [proper] in P. destruct (nth_error vs u) as [[k' v]|] eqn:E; [|destruct P]. destruct (Vstep k' v o) as [v'|] eqn:Hs; [|destruct P].
  destruct (Nat.eq_dec t u) as [->|N]; [rewrite E in H; injection H as -> ->; discriminate Hs|]. rewrite ops_there by exact N. apply (IH _ t k) in P; [exact P|].
  rewrite nth_error_app1 by (rewrite upd_length; apply nth_error_Some; congruence). rewrite nth_error_upd_neq by congruence. exact H.
Qed.
Lemma never_more : forall t u (o : op) ls, never_frees (ops_of t ((u, o) :: ls)) -> never_frees (ops_of t ls).
Proof. intros t u o ls H b Hb. apply (H b). destruct (Nat.eq_dec t u) as [->|N]; [rewrite ops_here; right; exact Hb|rewrite ops_there by exact N; exact Hb]. Qed.
Lemma run_ok : forall ls fuel s vs, inv s vs -> proper key obj keq same fin (views vs) ls ->
  run key obj keq same fin fuel s ls = NoFuel \/ exists s' outs vs', run key obj keq same fin fuel s ls = Ok (s', outs) /\ inv s' vs' /\ report vs vs' ls outs.
Proof.
  induction ls as [|[t o] ls IH]; intros fuel s vs I P.
  - right. exists s, [], vs. split; [reflexivity|]. split; [exact I|]. split; [intros t x H; exists x; split; [exact H|apply incl_refl]|]. split; [reflexivity|]. split; [intros t n []|]. split; [|intros t b []].
    intros t _. destruct (nth_error vs t) as [x|] eqn:E; [|exists 0; split; [intros n []|discriminate]]. exists (match oi x with Some k => k | None => 0 end). split; [intros n []|]. intros y k H Hk. injection H as <-. rewrite Hk. reflexivity.
  - cbn [proper] in P. unfold views in P. rewrite nth_error_map in P. destruct (nth_error vs t) as [x|] eqn:Hx; [|destruct P]. cbn [option_map] in P. destruct (Vstep (kd x) (vw x) o) as [v'|] eqn:Hs; [|destruct P].
    cbn [run fst]. destruct (step_ok fuel s vs t x o v' I Hx Hs) as [N|(s1 & a & x1 & new & E1 & I1 & K1 & V1 & M1 & A1 & Kp)]; [rewrite N; left; reflexivity|].
    rewrite E1. cbn [obind fst snd].
    assert (views (upd vs t x1 ++ new) = upd (map (fun y => (kd y, vw y)) vs) t (kd x, v') ++ made_by key obj o) as Ev by (unfold views; rewrite map_app, map_upd, M1, K1, V1; reflexivity).
    rewrite <- Ev in P. destruct (IH fuel s1 _ I1 P) as [N|(s' & outs & vs' & E & I' & R1 & R2 & R3 & R4 & R5)]; [rewrite N; left; reflexivity|].
    rewrite E. cbn [obind fst snd]. right. exists s', ((t, a) :: outs), vs'. split; [reflexivity|]. split; [exact I'|].
    assert (nth_error (upd vs t x1 ++ new) t = Some x1) as Hx1.
    { rewrite nth_error_app1; [eapply nth_upd_same; eauto|]. rewrite upd_length. apply nth_error_Some. congruence. }
    assert (forall u y, u <> t -> nth_error vs u = Some y -> nth_error (upd vs t x1 ++ new) u = Some y) as Hy.
    { intros u y N H. rewrite nth_error_app1; [rewrite nth_error_upd_neq by congruence; exact H|]. rewrite upd_length. apply nth_error_Some. congruence. }
    split; [|split; [|split; [|split]]].
    + intros u y Hu. destruct (Nat.eq_dec u t) as [->|N].
      * destruct (R1 t x1 Hx1) as (x' & F1 & F2). exists x'. split; [exact F1|]. replace y with x by congruence. eapply incl_tran; [apply Kp|exact F2].
      * exact (R1 u y (Hy u y N Hu)).
    + intros u m' H. destruct (Nat.eq_dec u t) as [->|N].
      * rewrite Hx in H. destruct H as [H|H]; [rewrite H in Hs; discriminate Hs|]. rewrite ops_here.
        assert (gets_of t ((t, a) :: outs) = match o with Get q => [look (ent (vw x)) q] | _ => [] end ++ gets_of t outs) as ->.
        { unfold gets_of. cbn [flat_map fst snd]. f_equal. unfold Context_Calls.answered in A1. destruct o; try (rewrite A1; reflexivity).
          - destruct A1 as (n & -> & _). reflexivity.
          - destruct A1 as (d & m & E2 & ->). rewrite Nat.eqb_refl, E2. reflexivity. }
        assert (v' = VGone \/ v' <> VGone) as [G|G] by (destruct v'; auto; right; discriminate).
        -- assert (ops_of t ls = []) as Z. { eapply (gone_quiet ls _ t (kd x)); [|exact P]. rewrite Ev. rewrite nth_error_app1 by (rewrite upd_length, map_length; apply nth_error_Some; congruence). rewrite nth_error_upd_eq by (rewrite map_length; apply nth_error_Some; congruence). rewrite G. reflexivity. }
           assert (gets_of t outs = []) as Z'. { rewrite (R2 t [] ltac:(rewrite Hx1; left; congruence)), Z. reflexivity. } rewrite Z, Z', app_nil_r.
           rewrite G in Hs. destruct o; try reflexivity. exfalso. destruct (vw x); cbn in Hs; discriminate Hs.
        -- destruct (own_step _ _ _ _ _ Hs H G) as (m'' & A2 & Eq). rewrite Eq. f_equal. apply R2. rewrite Hx1. right. rewrite V1. exact A2.
      * rewrite ops_there by exact N. assert (gets_of u ((t, a) :: outs) = gets_of u outs) as ->.
        { unfold gets_of. cbn [flat_map fst snd]. destruct a; try reflexivity. destruct (Nat.eqb_spec t u); [congruence|reflexivity]. }
        apply R2. destruct (nth_error vs u) as [y|] eqn:Hu; [rewrite (Hy u y N Hu); exact H|].
        destruct (nth_error (upd vs t x1 ++ new) u) as [y|] eqn:Hu'; [|exact H]. right.
        rewrite nth_error_app2 in Hu' by (rewrite upd_length; apply nth_error_None; exact Hu). apply nth_error_In in Hu'.
        assert (ent (vw y) = []) as ->; [|exact H]. assert (In (kd y, vw y) (made_by key obj o)) as Q by (rewrite <- M1; apply (in_map (fun y => (kd y, vw y))); exact Hu').
        destruct o; cbn in Q; try tauto; destruct Q as [Q|[]]; injection Q as _ <-; reflexivity.
    + intros u n [H|H]; [|exact (R3 u n H)]. injection H as -> ->. unfold Context_Calls.answered in A1. destruct o; try discriminate A1; try (destruct A1 as (? & ? & _ & A1); discriminate A1).
      destruct A1 as (n' & A1 & A2). injection A1 as <-. destruct (R1 u x1 Hx1) as (x' & F1 & F2). exists x'. split; [exact F1|]. apply F2. destruct (i_ok _ _ _ _ I1 _ _ Hx1) as (_ & _ & C & _). apply (C n A2).
    + intros u Nf. destruct (R4 u (never_more _ _ _ _ Nf)) as (n0 & F1 & F2). destruct (Nat.eq_dec u t) as [->|N].
      * assert (forall k, oi x = Some k -> v' <> VGone -> oi x1 = Some k) as Sm.
        { intros k Hk G. destruct Kp as [_ Kp]. apply Kp; [exact Hk| |rewrite V1; exact G]. intros b Eb. apply (Nf b). rewrite ops_here, Eb. left. reflexivity. }
        assert (v' = VGone \/ v' <> VGone) as [G|G] by (destruct v'; auto; right; discriminate).
        -- (* no answers later *)
           assert (forall n, ~ In (t, AThread n) ((t, a) :: outs)) as No.
           { intros n [Hn|Hn].
             - injection Hn as ->. unfold Context_Calls.answered in A1. destruct o; try discriminate A1; try (destruct A1 as (? & ? & _ & A1); discriminate A1). destruct (vw x); cbn in Hs; try discriminate Hs. congruence.
             - assert (ops_of t ls = []) as Z. { eapply (gone_quiet ls _ t (kd x)); [|exact P]. rewrite Ev. rewrite nth_error_app1 by (rewrite upd_length, map_length; apply nth_error_Some; congruence). rewrite nth_error_upd_eq by (rewrite map_length; apply nth_error_Some; congruence). rewrite G. reflexivity. }
               clear - Z Hn E. revert s1 s' outs Z Hn E. induction ls as [|[u q] ls IHl]; intros s1 s' outs Z Hn E; cbn [run] in E; [injection E as <- <-; destruct Hn|].
               destruct (step key obj keq same fin fuel s1 (u, q)) as [[s2 a2]| | |]; try discriminate E. cbn [obind fst snd] in E. destruct (run key obj keq same fin fuel s2 ls) as [[s3 o3]| | |] eqn:E3; try discriminate E. cbn [obind fst snd] in E. injection E as <- <-.
               destruct (Nat.eq_dec t u) as [->|N]; [rewrite ops_here in Z; discriminate Z|]. rewrite ops_there in Z by exact N. destruct Hn as [Hn|Hn]; [congruence|]. eapply IHl; eauto. }
           exists (match oi x with Some k => k | None => 0 end). split; [intros n Hn; destruct (No n Hn)|]. intros y k Hy' Hk. rewrite Hx in Hy'. injection Hy' as <-. rewrite Hk. reflexivity.
        -- exists n0. split.
           ++ intros n [Hn|Hn]; [|auto]. injection Hn as ->. unfold Context_Calls.answered in A1. destruct o; try discriminate A1; try (destruct A1 as (? & ? & _ & A1); discriminate A1).
              destruct A1 as (n' & A1 & A2). injection A1 as <-. symmetry. exact (F2 x1 n Hx1 A2).
           ++ intros y k Hy' Hk. rewrite Hx in Hy'. injection Hy' as <-. exact (F2 x1 k Hx1 (Sm k Hk G)).
      * exists n0. split; [intros n [Hn|Hn]; [congruence|auto]|]. intros y k Hu Hk. exact (F2 y k (Hy u y N Hu) Hk).
    + intros u b [H|H]; [|exact (R5 u b H)]. injection H as -> ->. unfold Context_Calls.answered in A1. destruct o; try discriminate A1; try (destruct A1 as (? & A1); try destruct A1 as (? & A1 & A2); try discriminate). { destruct A1 as [A1 _]. discriminate A1. } congruence.
Qed.

(** ** From the start *)
Definition vs0 : list pv := [mkPV KMain (VHas 0 []) (Some 0) (Some 0) [0]].
Lemma inv_init : inv init vs0.
Proof.
  assert (forall t x, nth_error vs0 t = Some x -> t = 0 /\ x = mkPV KMain (VHas 0 []) (Some 0) (Some 0) [0]) as One. { intros [|t] x H; cbn in H; [injection H as <-; auto|destruct t; discriminate H]. }
  constructor; try (intros t t' x x' i H1 H2 _ _; destruct (One _ _ H1), (One _ _ H2); congruence).
  - reflexivity.
  - intros t x H. destruct (One _ _ H) as [_ ->]. split; [cbn; split; discriminate|]. split; [|split]; cbn.
    + intros i E. injection E as <-. exists (fresh (Some 0)). split; [reflexivity|]. unfold ctx_ok. cbn. split; [reflexivity|]. split; [reflexivity|apply pool_start].
    + intros o E. injection E as <-. split; [reflexivity|left; reflexivity].
    + constructor; [lia|constructor].
  - intros i c H. destruct i as [|i]; [|destruct i; discriminate H]. exists 0. eexists. split; reflexivity.
  - apply Permutation_refl.
  - exists 0, []. reflexivity.
  - intros t x H _. apply (One _ _ H).
Qed.
Lemma inv_owned : forall s vs, inv s vs -> owned s.
Proof.
  intros s vs I i c H. destruct (i_own _ _ _ _ I _ _ H) as (t & x & Hx & E). pose proof (thread_at _ _ _ _ _ _ I Hx) as Th. destruct (i_ok _ _ _ _ I _ _ Hx) as (B & _). unfold Context_Proofs.thread_of in Th. rewrite E in Th.
  exists t, (maker_of key obj x). rewrite Th. f_equal. f_equal. unfold shape in B. destruct (vw x); try reflexivity; [destruct B as (_ & B & _)|destruct B as (B & _)]; congruence.
Qed.
Lemma inv_alive : forall s vs, inv s vs -> objects_alive s.
Proof.
  intros s vs I t i o p H. rewrite (i_threads _ _ _ _ I) in H. rewrite nth_error_map in H. destruct (nth_error vs t) as [x|] eqn:Hx; [|discriminate H]. cbn in H. unfold Context_Proofs.thread_of, maker_of in H.
  destruct (kd x) eqn:K; try discriminate H. injection H as H1 H2 H3. destruct (i_ok _ _ _ _ I _ _ Hx) as (B & _ & C & _).
  assert (oi x = Some o) as Eo. { unfold shape in B. destruct (vw x); [destruct B as (_ & _ & B)|destruct B as (B & _); congruence|destruct B as (_ & B); assert (oi x <> None) by (apply B; congruence)|destruct B as (_ & [[_ B]|[B _]]); [|congruence]]; destruct (oi x); congruence. }
  destruct (C o Eo) as [E _]. exists (count key obj x). split; [exact E|]. unfold count. rewrite K, <- H3. destruct (vw x); cbn; split; congruence.
Qed.
Theorem histories : forall fuel ls, proper key obj keq same fin at_start ls ->
  run key obj keq same fin fuel init ls = NoFuel \/
  exists s outs, run key obj keq same fin fuel init ls = Ok (s, outs) /\
    Permutation (taken s) (released s ++ held s) /\ owned s /\ objects_alive s /\
    (forall t, gets_of t outs = own key obj keq [] (ops_of t ls)) /\
    (forall t t' n, In (t, AThread n) outs -> In (t', AThread n) outs -> t = t') /\
    (forall t n n', (forall b, ~ In (Free b) (ops_of t ls)) -> In (t, AThread n) outs -> In (t, AThread n') outs -> n = n') /\
    (forall t b, In (t, ABool b) outs -> b = (t =? 0)).
Proof.
  intros fuel ls P. destruct (run_ok ls fuel init vs0 inv_init P) as [N|(s & outs & vs' & E & I & R1 & R2 & R3 & R4 & R5)]; [left; exact N|right].
  exists s, outs. split; [exact E|]. split; [exact (i_bal _ _ _ _ I)|]. split; [eapply inv_owned; eauto|]. split; [eapply inv_alive; eauto|]. split; [|split; [|split; [|exact R5]]].
  - intros t. apply R2. assert (agree [] []) as A by (split; [reflexivity|exact Logic.I]). destruct t as [|t]; cbn; [right; exact A|destruct t; exact A].
  - intros t t' n H H'. destruct (R3 _ _ H) as (x & X1 & X2). destruct (R3 _ _ H') as (x' & X1' & X2'). eapply (i_past _ _ _ _ I); eauto.
  - intros t n n' Nf H H'. destruct (R4 t Nf) as (n0 & F & _). rewrite (F n H), (F n' H'). reflexivity.
Qed.
End Results.

Section Statements.
  Variables (key obj : Type) (keq : key -> key -> bool) (same : obj -> obj -> bool) (fin : obj -> list obj).
  Hypothesis keq_eq : HashTable_Spec.equivalence key keq.
  Hypothesis same_eq : forall a b, same a b = true -> a = b.
  Lemma dictionaries : forall fuel ls, proper key obj keq same fin at_start ls ->
    run key obj keq same fin fuel init ls = NoFuel \/
    exists s outs, run key obj keq same fin fuel init ls = Ok (s, outs) /\ forall t, gets_of t outs = own key obj keq [] (ops_of t ls).
  Proof. intros fuel ls P. destruct (histories key obj keq same fin keq_eq same_eq fuel ls P) as [N|(s & outs & E & _ & _ & _ & H & _)]; [left; exact N|right; exists s, outs; auto]. Qed.
  Lemma nothing_lost : forall fuel ls, proper key obj keq same fin at_start ls ->
    run key obj keq same fin fuel init ls = NoFuel \/
    exists s outs, run key obj keq same fin fuel init ls = Ok (s, outs) /\ Permutation (taken s) (released s ++ held s) /\ owned s /\ objects_alive s.
  Proof. intros fuel ls P. destruct (histories key obj keq same fin keq_eq same_eq fuel ls P) as [N|(s & outs & E & H1 & H2 & H3 & _)]; [left; exact N|right; exists s, outs; auto]. Qed.
  Lemma current_threads : forall fuel ls, proper key obj keq same fin at_start ls ->
    run key obj keq same fin fuel init ls = NoFuel \/
    exists s outs, run key obj keq same fin fuel init ls = Ok (s, outs) /\
      (forall t t' n, In (t, AThread n) outs -> In (t', AThread n) outs -> t = t') /\
      (forall t n n', (forall b, ~ In (Free b) (ops_of t ls)) -> In (t, AThread n) outs -> In (t, AThread n') outs -> n = n') /\
      (forall t b, In (t, ABool b) outs -> b = (t =? 0)).
  Proof. intros fuel ls P. destruct (histories key obj keq same fin keq_eq same_eq fuel ls P) as [N|(s & outs & E & _ & _ & _ & _ & H1 & H2 & H3)]; [left; exact N|right; exists s, outs; auto]. Qed.
End Statements.

Lemma exit_refuted : forall fuel, run nat nat Nat.eqb Nat.eqb (fun _ => []) (S fuel) init [(0, New); (1, Begin); (1, Exit)] = Fatal.
Proof. intros fuel. reflexivity. Qed.
Lemma finalizer_refuted : exists fin fuel, run nat nat Nat.eqb Nat.eqb fin fuel init [(0, New); (1, Begin); (1, Put 5 7); (1, Return)] = UB.
Proof. exists (fun x => match x with 7 => [8] | _ => [] end), 10. vm_compute. reflexivity. Qed.
Lemma unpooled_refuted : exists fuel s outs, run nat nat Nat.eqb Nat.eqb (fun _ => []) fuel init [(0, Spawn); (1, Alloc); (1, Pool (Auto 7)); (1, Return)] = Ok (s, outs) /\
    taken s = [7] /\ released s = [] /\ held s = [].
Proof. exists 10. eexists. eexists. split; [vm_compute; reflexivity|]. vm_compute. auto. Qed.
Lemma freed_twice_refuted : exists fuel s outs, run nat nat Nat.eqb Nat.eqb (fun _ => []) fuel init [(0, Spawn); (1, Alloc); (1, Put 5 7); (1, Free false)] = Ok (s, outs) /\
    run nat nat Nat.eqb Nat.eqb (fun _ => []) fuel init [(0, Spawn); (1, Alloc); (1, Put 5 7); (1, Free false); (1, Return)] = UB.
Proof. exists 10. eexists. eexists. split; vm_compute; reflexivity. Qed.
Lemma case :
  let fin := fun x => match x with 3 => [30] | _ => [] end in
  let ls := [(0, Put 1 10); (0, New); (1, Begin); (0, Spawn); (2, Alloc); (1, Put 1 3); (2, Put 1 12); (1, Pool (Auto 3)); (1, Put 1 4); (1, Get 1); (2, Get 1); (0, Get 1);
             (2, Remove 1); (2, Get 1); (1, Current); (2, Current); (1, IsMain); (0, IsMain); (1, Return); (2, Free true); (2, Alloc); (2, Get 1); (2, Return)] in
  proper nat nat Nat.eqb Nat.eqb fin at_start ls /\
  exists s outs, run nat nat Nat.eqb Nat.eqb fin 50 init ls = Ok (s, outs) /\ released s = [3; 12; 3; 30; 30; 4] /\ held s = [10] /\
    gets_of 0 outs = [Some 10] /\ gets_of 1 outs = [Some 4] /\ gets_of 2 outs = [Some 12; None; None] /\ refs s = [1; 0; 0].
Proof. intros fin ls. split; [vm_compute; exact Logic.I|]. eexists. eexists. split; [vm_compute; reflexivity|]. vm_compute. repeat split. Qed.
