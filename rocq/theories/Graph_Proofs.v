(** Proofs about graphs. *)
Require Import Coq.ZArith.ZArith Coq.Lists.List Coq.Arith.Arith Coq.Bool.Bool Coq.micromega.Lia.
Require Import Verif.Base Verif.HashTable_Model Verif.Tree_Model Verif.Tree_Spec Verif.Tree_Runs Verif.Graph_Model Verif.Graph_Spec.
Import ListNotations.

(** ** Edges *)
Lemma dget_dset g v es w : dget (dset g v es) w = if v =? w then Some es else dget g w.
Proof.
  induction g as [|[u fs] g IH]; cbn; auto. destruct (Nat.eqb_spec u v) as [->|N]; cbn.
  - destruct (v =? w); auto.
  - destruct (Nat.eqb_spec u w) as [->|M]; auto. destruct (Nat.eqb_spec v w); congruence.
Qed.
Lemma dget_dremove g v w : dget (dremove g v) w = if v =? w then None else dget g w.
Proof.
  unfold dremove. induction g as [|[u fs] g IH]; cbn; [now destruct (v =? w)|]. destruct (Nat.eqb_spec u v) as [->|N]; cbn.
  - rewrite IH. destruct (v =? w); auto.
  - rewrite IH. destruct (Nat.eqb_spec u w) as [->|M]; auto. destruct (Nat.eqb_spec v w); congruence.
Qed.
Definition opt (es : list edge) : option (list edge) := match es with [] => None | _ => Some es end.
Definition grel (g : graph) (l : list sedge) : Prop := NoDup (map (fun e => (src e, dst e)) l) /\ forall v, dget g v = opt (out l v).

Lemma find_index_spec es to i : match find_index es to i with
  | Some k => i <= k /\ exists e, nth_error es (k - i) = Some e /\ second e = to /\ forall j e', j < k - i -> nth_error es j = Some e' -> second e' <> to
  | None => forall e, In e es -> second e <> to end.
Proof.
  revert i. induction es as [|e es IH]; intros i; cbn; [intros ? []|]. destruct (Nat.eqb_spec (second e) to) as [E|N].
  - split; auto. exists e. rewrite Nat.sub_diag. cbn. repeat split; auto. intros j e' H. lia.
  - specialize (IH (S i)). destruct (find_index es to (S i)) as [k|].
    + destruct IH as (L & e0 & A & B & C). split; [lia|]. exists e0. replace (k - i) with (S (k - S i)) by lia. cbn. repeat split; auto.
      intros [|j] e' Lj H; cbn in H; [congruence|]. apply (C j e'); auto. lia.
    + intros e0 [<-|H]; auto.
Qed.
Lemma out_app l a e : out (l ++ [e]) a = out l a ++ if src e =? a then [mkE (dst e) (info e)] else [].
Proof. unfold out. rewrite filter_app, map_app. cbn. now destruct (src e =? a). Qed.
Lemma in_out l a b : (exists e, In e (out l a) /\ second e = b) <-> existsb (is_edge a b) l = true.
Proof.
  rewrite existsb_exists. unfold out, is_edge. split.
  - intros (e & H & <-). apply in_map_iff in H. destruct H as (s & <- & H). apply filter_In in H. destruct H as [H1 H2]. exists s. split; auto. cbn. now rewrite H2, Nat.eqb_refl.
  - intros (s & H & E). apply andb_prop in E. destruct E as [E1 E2]. apply Nat.eqb_eq in E2. exists (mkE (dst s) (info s)). split; auto.
    apply in_map_iff. exists s. split; auto. apply filter_In. auto.
Qed.
Lemma insert_rel g l a b : grel g l -> grel (insert_edge g a b) (s_add l a b).
Proof.
  intros [N R]. unfold insert_edge, s_add. rewrite (R a).
  assert (X: existsb (is_edge a b) l = false -> NoDup (map (fun e => (src e, dst e)) (l ++ [mkSE a b None]))).
  { intros E. rewrite map_app. cbn. apply NoDup_rev in N. rewrite <- (rev_involutive (_ ++ _)). apply NoDup_rev. rewrite rev_app_distr. cbn. constructor; auto.
    rewrite <- in_rev. intros H. apply in_map_iff in H. destruct H as (e & He & Hi). inversion He. subst.
    assert (existsb (is_edge (src e) (dst e)) l = true); [|congruence]. apply existsb_exists. exists e. split; auto. unfold is_edge. now rewrite !Nat.eqb_refl. }
  destruct (out l a) as [|e es] eqn:O; cbn [opt].
  - assert (E: existsb (is_edge a b) l = false).
    { destruct (existsb (is_edge a b) l) eqn:E; auto. apply in_out in E. rewrite O in E. destruct E as (? & [] & _). }
    rewrite E. split; auto. intros v. rewrite dget_dset, out_app. cbn. destruct (Nat.eqb_spec a v) as [<-|M]; [rewrite O; reflexivity|]. rewrite app_nil_r. apply R.
  - rewrite <- O. pose proof (find_index_spec (out l a) b 0) as F. destruct (find_index (out l a) b 0) as [k|].
    + destruct F as (_ & e0 & A & B & _). assert (E: existsb (is_edge a b) l = true) by (apply in_out; exists e0; split; auto; eapply nth_error_In; eauto).
      rewrite E. split; auto.
    + assert (E: existsb (is_edge a b) l = false).
      { destruct (existsb (is_edge a b) l) eqn:E; auto. apply in_out in E. destruct E as (e0 & A & B). now elim (F e0 A). }
      rewrite E. split; auto. intros v. rewrite dget_dset, out_app. cbn. destruct (Nat.eqb_spec a v) as [<-|M]; [rewrite O; reflexivity|]. rewrite app_nil_r. apply R.
Qed.
Lemma NoDup_filter {A B} (h : A -> B) f (l : list A) : NoDup (map h l) -> NoDup (map h (filter f l)).
Proof.
  induction l as [|a l IH]; cbn; auto. intros H. inversion_clear H. destruct (f a); cbn; auto. constructor; auto.
  intros X. apply in_map_iff in X. destruct X as (x & E & X). apply filter_In in X. apply H0. rewrite <- E. apply in_map. tauto.
Qed.
Lemma out_seconds l a : NoDup (map (fun e => (src e, dst e)) l) -> NoDup (map second (out l a)).
Proof.
  intros N. unfold out. rewrite map_map. cbn. induction l as [|e l IH]; cbn; [constructor|]. cbn in N. inversion_clear N.
  destruct (Nat.eqb_spec (src e) a) as [E|E]; cbn; auto. constructor; auto. intros X. apply in_map_iff in X. destruct X as (x & Ex & X). apply filter_In in X. destruct X as [X1 X2]. apply Nat.eqb_eq in X2.
  apply H. apply in_map_iff. exists x. split; auto. congruence.
Qed.
Lemma filter_split es b k e : NoDup (map second es) -> nth_error es k = Some e -> second e = b ->
  filter (fun x => negb (second x =? b)) es = firstn k es ++ skipn (S k) es.
Proof.
  revert k. induction es as [|x es IH]; intros [|k] N H E; cbn in *; try discriminate; inversion_clear N.
  - inversion H. subst. rewrite Nat.eqb_refl. cbn. clear IH H. rename H0 into H, H1 into N. induction es as [|y es IHes]; auto. cbn.
    destruct (Nat.eqb_spec (second y) (second e)) as [Q|Q]; [elim H; cbn; auto|]. cbn. f_equal. apply IHes; [intros X; apply H; cbn; auto|now inversion N].
  - destruct (Nat.eqb_spec (second x) b) as [Q|Q].
    + elim H0. rewrite Q, <- E. apply in_map. eapply nth_error_In; eauto.
    + cbn. f_equal. apply IH; auto.
Qed.
Lemma out_del l a b v : out (s_del l a b) v = if a =? v then filter (fun x => negb (second x =? b)) (out l v) else out l v.
Proof.
  unfold out, s_del. induction l as [|e l IH]; cbn; [now destruct (a =? v)|]. unfold is_edge at 1.
  destruct (Nat.eqb_spec (src e) a) as [E|E]; destruct (Nat.eqb_spec (dst e) b) as [F|F]; cbn; destruct (Nat.eqb_spec (src e) v) as [G|G]; cbn;
    destruct (Nat.eqb_spec a v) as [Q|Q]; cbn; try congruence; rewrite IH; try reflexivity; try congruence.
  - rewrite F, Nat.eqb_refl. reflexivity.
  - destruct (Nat.eqb_spec (dst e) b); [congruence|]. reflexivity.
Qed.
Lemma filter_len {A} f (l : list A) x : In x l -> f x = false -> length (filter f l) < length l.
Proof.
  induction l as [|a l IH]; intros H F; [inversion H|]. cbn. destruct H as [->|H].
  - rewrite F. assert (L: length (filter f l) <= length l) by (clear; induction l; cbn; auto; destruct (f a); cbn; lia). lia.
  - specialize (IH H F). destruct (f a); cbn; lia.
Qed.
Lemma filter_same {A} f (l : list A) : (forall x, In x l -> f x = true) -> filter f l = l.
Proof. induction l as [|a l IH]; intros H; cbn; auto. rewrite H by (cbn; auto). f_equal. apply IH. intros; apply H; cbn; auto. Qed.
Lemma remove_rel g l a b : grel g l -> grel (remove_edge g a b) (s_del l a b).
Proof.
  intros [N R]. split; [now apply NoDup_filter|]. intros v. rewrite out_del. unfold remove_edge. rewrite (R a).
  destruct (out l a) as [|e es] eqn:O; cbn [opt].
  - rewrite (R v). destruct (Nat.eqb_spec a v) as [<-|]; auto. now rewrite O.
  - rewrite <- O. pose proof (find_index_spec (out l a) b 0) as F. pose proof (out_seconds l a N) as Sn. destruct (find_index (out l a) b 0) as [k|].
    + destruct F as (_ & e0 & A & B & _). rewrite Nat.sub_0_r in A.
      pose proof (filter_split _ _ _ _ Sn A B) as P.
      destruct (Nat.eqb_spec (length (out l a)) 1) as [L|L].
      * rewrite dget_dremove. destruct (Nat.eqb_spec a v) as [<-|M]; [|apply R]. rewrite P.
        destruct (out l a) as [|e1 [|e2 es']]; try discriminate. destruct k as [|k]; [reflexivity|]. cbn in A. destruct k; discriminate.
      * rewrite dget_dset. destruct (Nat.eqb_spec a v) as [<-|M]; [|apply R]. rewrite P.
        assert (K: k < length (out l a)) by (apply nth_error_Some; congruence).
        assert (Q: length (firstn k (out l a) ++ skipn (S k) (out l a)) = length (out l a) - 1) by (rewrite app_length, firstn_length, skipn_length; lia).
        destruct (firstn k (out l a) ++ skipn (S k) (out l a)); [cbn in Q; lia|reflexivity].
    + rewrite (R v). destruct (Nat.eqb_spec a v) as [<-|M]; auto. rewrite filter_same; auto. intros x X. destruct (Nat.eqb_spec (second x) b); auto. now elim (F x X).
Qed.
Lemma find_edge_rel g l a b : grel g l -> find_edge g a b = option_map (fun e => mkE (dst e) (info e)) (List.find (is_edge a b) l).
Proof.
  intros [N R]. unfold find_edge. rewrite (R a).
  assert (X: match find_index (out l a) b 0 with Some i => nth_error (out l a) i | None => None end = option_map (fun e => mkE (dst e) (info e)) (List.find (is_edge a b) l)).
  { clear. unfold out. assert (G: forall i0 pre, length pre = i0 -> match find_index (map (fun e => mkE (dst e) (info e)) (filter (fun e => src e =? a) l)) b i0 with
      | Some i => nth_error (pre ++ map (fun e => mkE (dst e) (info e)) (filter (fun e => src e =? a) l)) i | None => None end = option_map (fun e => mkE (dst e) (info e)) (List.find (is_edge a b) l)).
    { induction l as [|e l IH]; intros i0 pre Hl; cbn; auto. unfold is_edge at 1. destruct (src e =? a); cbn; [|auto].
      destruct (dst e =? b) eqn:D; cbn.
      - rewrite nth_error_app2 by lia. rewrite Hl, Nat.sub_diag. reflexivity.
      - specialize (IH (S i0) (pre ++ [mkE (dst e) (info e)])). rewrite <- app_assoc in IH. cbn in IH. apply IH. rewrite app_length. cbn. lia. }
    apply (G 0 []). reflexivity. }
  rewrite <- X. destruct (out l a); reflexivity.
Qed.
Lemma setinfo_rel g l a b x : grel g l -> grel (fst (gexec g (SetInfo a b x))) (fst (s_gexec l (SetInfo a b x))).
Proof.
  intros [N R]. cbn [gexec s_gexec fst].
  assert (Keys: map (fun e => (src e, dst e)) (map (fun e => if is_edge a b e then mkSE a b x else e) l) = map (fun e => (src e, dst e)) l).
  { rewrite map_map. apply map_ext. intros e. destruct (is_edge a b e) eqn:E; auto. apply andb_prop in E. destruct E as [E1 E2]. apply Nat.eqb_eq in E1, E2. cbn. congruence. }
  assert (Out: forall v, out (map (fun e => if is_edge a b e then mkSE a b x else e) l) v = if a =? v then map (fun e => if second e =? b then mkE b x else e) (out l v) else out l v).
  { intros v. clear. unfold out. induction l as [|e l IH]; [cbn; now destruct (a =? v)|]. cbn [map]. destruct (is_edge a b e) eqn:X.
    - apply andb_prop in X. destruct X as [E F]. apply Nat.eqb_eq in E. cbn [filter src]. rewrite E. destruct (a =? v) eqn:G; [|exact IH].
      cbn [map second dst info]. rewrite F. f_equal. exact IH.
    - cbn [filter]. destruct (src e =? v) eqn:Y; [|exact IH]. cbn [map]. destruct (a =? v) eqn:G.
      + cbn [map second]. unfold is_edge in X. apply Nat.eqb_eq in G, Y. subst v. rewrite Y, Nat.eqb_refl in X. cbn in X. rewrite X. f_equal. exact IH.
      + f_equal. exact IH. }
  split; [now rewrite Keys|]. intros v. rewrite Out. rewrite (R a).
  pose proof (find_index_spec (out l a) b 0) as F. pose proof (out_seconds l a N) as Sn.
  assert (Same: (forall e, In e (out l a) -> second e <> b) -> map (fun e => if second e =? b then mkE b x else e) (out l a) = out l a).
  { intros H. rewrite <- (map_id (out l a)) at 2. apply map_ext_in. intros e He. specialize (H e He). apply Nat.eqb_neq in H. now rewrite H. }
  destruct (out l a) as [|e es] eqn:O; cbn [opt].
  - rewrite (R v). destruct (Nat.eqb_spec a v) as [<-|]; auto. now rewrite O.
  - rewrite <- O in *. destruct (find_index (out l a) b 0) as [k|].
    + destruct F as (_ & e0 & A & B & _). rewrite Nat.sub_0_r in A. rewrite dget_dset. destruct (Nat.eqb_spec a v) as [<-|M]; [|apply R].
      assert (P: upd (out l a) k (mkE b x) = map (fun e => if second e =? b then mkE b x else e) (out l a)).
      { clear - A B Sn. revert k A. induction (out l a) as [|y ys IH]; intros [|k] A; cbn in *; try discriminate; inversion_clear Sn.
        - inversion A. subst y. rewrite B, Nat.eqb_refl. f_equal. rewrite <- (map_id ys) at 1. apply map_ext_in. intros z Z.
          destruct (Nat.eqb_spec (second z) b) as [Q|Q]; auto. elim H. rewrite B, <- Q. now apply in_map.
        - destruct (Nat.eqb_spec (second y) b) as [Q|Q].
          + elim H. rewrite Q, <- B. apply in_map. eapply nth_error_In; eauto.
          + f_equal. auto. }
      rewrite P. rewrite O. reflexivity.
    + rewrite (R v). destruct (Nat.eqb_spec a v) as [<-|M]; auto. now rewrite Same.
Qed.
Lemma gexec_rel g l o : grel g l -> grel (fst (gexec g o)) (fst (s_gexec l o)) /\ snd (gexec g o) = snd (s_gexec l o).
Proof.
  intros R. destruct o; cbn [gexec s_gexec fst snd].
  - split; auto. destruct both; repeat apply insert_rel; auto.
  - split; auto. destruct both; repeat apply remove_rel; auto.
  - split; auto. split; [constructor|reflexivity].
  - split; auto. destruct R as [_ R]. rewrite R. now destruct (out l from).
  - split; auto. now rewrite (find_edge_rel g l).
  - split; auto. now apply (setinfo_rel g l from to x).
Qed.
Lemma gexecs_rel os : forall g l, grel g l -> grel (fst (gexecs g os)) (fst (s_gexecs l os)) /\ snd (gexecs g os) = snd (s_gexecs l os).
Proof.
  induction os as [|o os IH]; intros g l R; cbn [gexecs s_gexecs fst snd]; auto. destruct (gexec_rel g l o R) as [R1 E1]. destruct (IH _ _ R1) as [R2 E2]. split; auto. congruence.
Qed.
Lemma grel_nil : grel [] [].
Proof. split; [constructor|reflexivity]. Qed.
Lemma edges_refine os : snd (gexecs [] os) = snd (s_gexecs [] os).
Proof. apply gexecs_rel, grel_nil. Qed.
Lemma edges_NoDup os v : NoDup (neighbours (fst (gexecs [] os)) v).
Proof.
  destruct (gexecs_rel os [] [] grel_nil) as [[N R] _]. unfold neighbours. rewrite R. pose proof (out_seconds _ v N). destruct (out _ v); [constructor|exact H].
Qed.

(** ** Traversal *)
Definition fresh (vis : list nat) (w : nat) : bool := negb (existsb (Nat.eqb w) vis).
Lemma fresh_spec vis w : fresh vis w = true <-> ~ In w vis.
Proof.
  unfold fresh. rewrite negb_true_iff. split.
  - intros H I. assert (existsb (Nat.eqb w) vis = true) by (apply existsb_exists; exists w; split; auto; apply Nat.eqb_refl). congruence.
  - intros H. destruct (existsb (Nat.eqb w) vis) eqn:E; auto. apply existsb_exists in E. destruct E as (x & I & Q). apply Nat.eqb_eq in Q. subst. contradiction.
Qed.
(** [L] is what a traversal with this set of visited vertices and this queue visits. *)
Definition travels (g : graph) (vis queue L : list nat) : Prop :=
  exists fuel0, forall cb log fuel, fuel0 <= fuel -> traverse_loop fuel g cb log vis queue = Ok (call_back cb log L).
Definition right (g : graph) (vis queue L : list nat) : Prop :=
  (forall v, In v L -> exists q, In q queue /\ reach g q v) /\ (forall q, In q queue -> In q L) /\
  (forall x n, In x L -> In n (neighbours g x) -> In n L \/ In n vis).
Lemma travels_nil g vis : travels g vis [] [].
Proof. exists 1. intros cb log [|fuel] H; [lia|]. reflexivity. Qed.
Lemma travels_cons g vis v q L : travels g (v :: vis) (q ++ filter (fresh (v :: vis)) (neighbours g v)) L -> travels g vis (v :: q) (v :: L).
Proof.
  intros (f0 & H). exists (S f0). intros cb log [|fuel] Lf; [lia|]. cbn [traverse_loop call_back]. destruct (cb log v =? 0)%Z; auto. apply H. lia.
Qed.
Lemma right_cons g vis v q L : right g (v :: vis) (q ++ filter (fresh (v :: vis)) (neighbours g v)) L -> right g vis (v :: q) (v :: L).
Proof.
  intros (A & B & C). split; [|split].
  - intros x [<-|X]; [exists v; split; [cbn; auto|constructor]|]. destruct (A x X) as (p & P & R). apply in_app_iff in P. destruct P as [P|P].
    + exists p. split; cbn; auto.
    + apply filter_In in P. exists v. split; [cbn; auto|]. econstructor; [apply P|exact R].
  - intros x [<-|X]; [cbn; auto|]. right. apply B, in_or_app. auto.
  - intros x n [<-|X] N.
    + destruct (in_dec Nat.eq_dec n (v :: vis)) as [[<-|I]|I]; [left; cbn; auto|auto|]. left. right. apply B, in_or_app. right. apply filter_In. split; auto. now apply fresh_spec.
    + destruct (C x n X N) as [I|[<-|I]]; [left; cbn; auto|left; cbn; auto|auto].
Qed.
Definition unvisited (U vis : list nat) : nat := length (filter (fresh vis) U).
Lemma unvisited_less U vis v : In v U -> ~ In v vis -> unvisited U (v :: vis) < unvisited U vis.
Proof.
  intros I N. unfold unvisited. assert (E: filter (fresh (v :: vis)) U = filter (fun w => negb (w =? v)) (filter (fresh vis) U)).
  { clear. induction U as [|u U IH]; cbn; auto. unfold fresh at 1. cbn. destruct (Nat.eqb_spec u v) as [->|M]; cbn.
    - fold (fresh vis v). destruct (fresh vis v); cbn; [rewrite Nat.eqb_refl; cbn|]; exact IH.
    - fold (fresh vis u). destruct (fresh vis u); cbn; auto. apply Nat.eqb_neq in M. rewrite M. cbn. now f_equal. }
  rewrite E. apply filter_len with v; [|now rewrite Nat.eqb_refl]. apply filter_In. split; auto. now apply fresh_spec.
Qed.
Lemma unvisited_same U vis v : In v vis -> unvisited U (v :: vis) = unvisited U vis.
Proof.
  intros I. unfold unvisited. f_equal. apply filter_ext. intros w. apply eq_true_iff_eq. rewrite !fresh_spec. cbn. split; intuition congruence.
Qed.
Definition old (vis queue : list nat) : nat := length (filter (fun w => negb (fresh vis w)) queue).
Lemma old_app vis a b : old vis (a ++ b) = old vis a + old vis b.
Proof. unfold old. now rewrite filter_app, app_length. Qed.
Lemma old_fresh vis l : old vis (filter (fresh vis) l) = 0.
Proof. unfold old. induction l as [|a l IH]; auto. cbn. destruct (fresh vis a) eqn:F; cbn; auto. now rewrite F. Qed.
Lemma old_same vis v q : In v vis -> old (v :: vis) q = old vis q.
Proof. intros I. unfold old. f_equal. apply filter_ext. intros w. f_equal. apply eq_true_iff_eq. rewrite !fresh_spec. cbn. split; intuition congruence. Qed.
Definition universe (g : graph) : list nat := concat (map (fun p => map second (snd p)) g).
Lemma neighbours_universe g v w : In w (neighbours g v) -> In w (universe g).
Proof.
  unfold neighbours, universe. induction g as [|[u es] g IH]; cbn; [tauto|]. intros H. apply in_or_app. destruct (u =? v); auto.
Qed.
Lemma ends_aux g U : (forall v w, In w (neighbours g v) -> In w U) -> forall u n vis queue, unvisited U vis <= u -> old vis queue <= n -> (forall q, In q queue -> In q U) ->
  exists L, travels g vis queue L /\ right g vis queue L.
Proof.
  intros HU. induction u as [u IHu] using lt_wf_ind. induction n as [n IHn] using lt_wf_ind. intros vis [|v q] Hu Hn HQ.
  - exists []. split; [apply travels_nil|]. split; [|split]; intros; cbn in *; tauto.
  - assert (Q': forall x, In x (q ++ filter (fresh (v :: vis)) (neighbours g v)) -> In x U).
    { intros x X. apply in_app_iff in X. destruct X as [X|X]; [apply HQ; cbn; auto|]. apply filter_In in X. destruct X. eauto. }
    assert (Z: exists L, travels g (v :: vis) (q ++ filter (fresh (v :: vis)) (neighbours g v)) L /\ right g (v :: vis) (q ++ filter (fresh (v :: vis)) (neighbours g v)) L).
    { destruct (in_dec Nat.eq_dec v vis) as [I|I].
      - assert (F: fresh vis v = false) by (destruct (fresh vis v) eqn:F; auto; apply fresh_spec in F; contradiction).
        unfold old in Hn. cbn [filter] in Hn. rewrite F in Hn. cbn [negb length] in Hn. fold (old vis q) in Hn.
        apply (IHn (old vis q)); auto.
        + rewrite unvisited_same; auto.
        + rewrite old_app, old_fresh, old_same by auto. lia.
      - pose proof (unvisited_less U vis v (HQ v (or_introl eq_refl)) I) as Lt.
        eapply (IHu (unvisited U (v :: vis))); [lia|reflexivity|reflexivity|exact Q']. }
    destruct Z as (L & T & R). exists (v :: L). split; [now apply travels_cons|now apply right_cons].
Qed.
Lemma traverse_ends g from : exists L fuel0, (forall v, In v L <-> reach g from v) /\
  forall cb fuel, fuel0 <= fuel -> traverse fuel g cb from = Ok (call_back cb [] L).
Proof.
  destruct (ends_aux g (from :: universe g)) with (u := unvisited (from :: universe g) []) (n := old [] [from]) (vis := @nil nat) (queue := [from]) as (L & (f0 & T) & (A & B & C)).
  - intros v w H. right. eapply neighbours_universe; eauto.
  - auto.
  - auto.
  - intros q [<-|[]]. cbn. auto.
  - exists L, f0. split; [|intros; apply T; auto]. intros v. split.
    + intros H. destruct (A v H) as (q & [<-|[]] & R). exact R.
    + assert (K: forall a b, reach g a b -> In a L -> In b L).
      { intros a b R. induction R as [a|a w b N R IH]; auto. intros I. apply IH. destruct (C _ _ I N) as [X|[]]. exact X. }
      intros R. eapply K; eauto. apply B. cbn. auto.
Qed.

(** ** Visiting once *)
Lemma reach_trans g a b c : reach g a b -> reach g b c -> reach g a c.
Proof. intros R. induction R; auto. intros S. econstructor; eauto. Qed.
(** Once: in a tree the log and the queue never have a vertex twice. *)
Definition okq (g : graph) (from : nat) (log queue : list nat) : Prop :=
  NoDup (log ++ queue) /\ (forall v, In v (log ++ queue) -> reach g from v) /\
  (forall v, In v (log ++ queue) -> v = from \/ exists u, In u log /\ In v (neighbours g u)).
Lemma once_loop g from : tree_below g from -> forall fuel cb log vis queue log' r, (forall v, In v vis <-> In v log) -> okq g from log queue ->
  traverse_loop fuel g cb log vis queue = Ok (log', r) -> NoDup log'.
Proof.
  intros (T1 & T2 & T3). induction fuel as [|fuel IH]; intros cb log vis queue log' r V (N & R & P) H; [discriminate|]. cbn [traverse_loop] in H.
  destruct queue as [|v q].
  - inversion H. subst. now rewrite app_nil_r in N.
  - assert (N1: NoDup (log ++ [v])) by (rewrite app_assoc_reverse in N || idtac; replace (log ++ v :: q) with ((log ++ [v]) ++ q) in N by (rewrite <- app_assoc; reflexivity); clear - N; induction (log ++ [v]) as [|a l IHl]; [constructor|]; cbn in N; inversion_clear N; constructor; [intros X; apply H; apply in_or_app; auto|auto]).
    destruct (cb log v =? 0)%Z; [|inversion H; now subst].
    refine (IH _ _ _ _ _ _ _ _ H).
    + intros x. cbn. rewrite in_app_iff, V. cbn. tauto.
    + set (F := fun w : nat => negb (existsb (Nat.eqb w) (v :: vis))).
      assert (EF: forall w, F w = true <-> ~ In w (v :: vis)) by (intros; apply (fresh_spec (v :: vis))).
      assert (Rv: reach g from v) by (apply R, in_or_app; cbn; auto).
      assert (Dis: forall w, In w (filter F (neighbours g v)) -> ~ In w (log ++ v :: q)).
      { intros w W X. apply filter_In in W. destruct W as [W1 W2]. apply EF in W2. destruct (P w X) as [->|(u & U1 & U2)].
        - now elim (T1 v Rv).
        - assert (u = v) by (eapply T2; eauto; apply R, in_or_app; auto). subst u.
          apply NoDup_remove_2 in N. apply N, in_or_app. auto. }
      split; [|split].
      * replace ((log ++ [v]) ++ q ++ filter F (neighbours g v)) with ((log ++ v :: q) ++ filter F (neighbours g v)) by (rewrite <- !app_assoc; reflexivity).
        assert (N2: NoDup (filter F (neighbours g v))) by (apply List.NoDup_filter, T3, Rv).
        revert N N2 Dis. clear. generalize (filter F (neighbours g v)) as b. generalize (log ++ v :: q) as a.
        induction a as [|x a IHa]; intros b Na Nb D; auto. cbn. inversion_clear Na. constructor.
        -- intros X. apply in_app_iff in X. destruct X as [X|X]; [contradiction|]. apply (D x X). cbn. auto.
        -- apply IHa; auto. intros w W X. apply (D w W). cbn. auto.
      * intros x X. rewrite !in_app_iff in X. cbn in X. destruct X as [[X|[<-|[]]]|[X|X]]; auto; try (apply R, in_or_app; cbn; auto; fail).
        apply filter_In in X. eapply reach_trans; [exact Rv|]. econstructor; [apply X|constructor].
      * intros x X. rewrite !in_app_iff in X. cbn in X.
        assert (Y: In x (log ++ v :: q) \/ In x (filter F (neighbours g v))) by (rewrite in_app_iff; cbn; tauto).
        destruct Y as [Y|Y].
        -- destruct (P x Y) as [E|(u & U1 & U2)]; auto. right. exists u. split; auto. apply in_or_app. auto.
        -- right. exists v. split; [apply in_or_app; cbn; auto|]. apply filter_In in Y. tauto.
Qed.
Lemma once g from fuel cb log r : tree_below g from -> traverse fuel g cb from = Ok (log, r) -> NoDup log.
Proof.
  intros T H. eapply once_loop; eauto; [intros; tauto|]. split; [|split].
  - constructor; [intros []|constructor].
  - intros v [<-|[]]. constructor.
  - intros v [<-|[]]. auto.
Qed.
(** Two ways to the same vertex. *)
Definition diamond : list gop := [AddEdge 1 2 false; AddEdge 1 3 false; AddEdge 2 4 false; AddEdge 3 4 false].
Lemma twice : exists os fuel log, traverse fuel (fst (gexecs [] os)) (fun _ _ => 0%Z) 1 = Ok (log, 0%Z) /\ ~ NoDup log.
Proof.
  exists diamond, 10, [1; 2; 3; 4; 4]. split; [reflexivity|]. intros N. inversion_clear N. inversion_clear H0. inversion_clear H2. inversion_clear H3. apply H2. cbn. auto.
Qed.

(** ** Shortest paths *)
Lemma node_ordering : ordering (Z * Z) node_cmp.
Proof.
  assert (C: forall a b, node_cmp a b = 0%Z /\ fst a = fst b /\ snd a = snd b \/ node_cmp a b = 1%Z /\ (fst a < fst b \/ fst a = fst b /\ snd a < snd b)%Z \/ node_cmp a b = (-1)%Z /\ (fst b < fst a \/ fst a = fst b /\ snd b < snd a)%Z).
  { intros [a1 a2] [b1 b2]. unfold node_cmp. cbn [fst snd].
    destruct (Z.eqb_spec a1 b1); destruct (Z.eqb_spec a2 b2); destruct (Z.ltb_spec a1 b1); destruct (Z.ltb_spec b1 a1); destruct (Z.ltb_spec a2 b2); cbn [andb]; lia. }
  split; [intros a; pose proof (C a a); lia|]. split; [intros a b; pose proof (C a b); pose proof (C b a); lia|].
  split; [|split]; intros a b c; pose proof (C a b); pose proof (C b c); pose proof (C a c); lia.
Qed.
Lemma path_diverges R cost addr (rest : option nat -> outcome R) fuel : shortest_path fuel cost addr rest = NoFuel.
Proof.
  destruct fuel as [|[|fuel]]; try reflexivity.
  destruct (run_map (Z * Z) nat node_cmp node_ordering [TInsert _ _ (cost, addr) 0 InsertIfNotFound] (S (S fuel))) as (t & T & Re); [cbn; lia|].
  unfold shortest_path. cbn [trun tstep] in T.
  destruct (insert (Z * Z) nat node_cmp (S (S fuel)) (Tree_Model.init (Z * Z) nat) (cost, addr) 0 InsertIfNotFound) as [t'| | |] eqn:I; cbn [obind] in T; try discriminate.
  cbn in T. injection T as <-. cbn [obind].
  rewrite (first_diverges (Z * Z) nat node_cmp node_ordering t' _ (S (S fuel)) Re). reflexivity.
Qed.
