(** Invariant of the hash table and refinement to finite maps. *)
Require Import Coq.NArith.NArith Coq.Lists.List Coq.Bool.Bool Coq.Arith.Arith.
Require Import Coq.micromega.Lia Coq.Sorting.Permutation.
Require Import Verif.Base Verif.HashTable_Model Verif.HashTable_Spec.
Import ListNotations.
Local Open Scope N_scope.

Section Proofs.
  Variables K V : Type.
  Variable hash : K -> N.
  Variable keq : K -> K -> bool.
  Hypothesis Hequiv : equivalence K keq.
  Hypothesis Hhash : hash_respects K keq hash.

  Notation row := (row K V).
  Notation table := (table K V).
  Notation find := (find K V hash keq).
  Notation find_loop := (find_loop K V keq).
  Notation row_at := (row_at K V).
  Notation write_row := (write_row K V).

  Lemma keq_refl : forall a, keq a a = true.
  Proof. apply Hequiv. Qed.
  Lemma keq_sym : forall a b, keq a b = keq b a.
  Proof. apply Hequiv. Qed.
  Lemma keq_trans : forall a b c, keq a b = true -> keq b c = true -> keq a c = true.
  Proof. apply Hequiv. Qed.
  Lemma keq_cong_l : forall a b c, keq a b = true -> keq a c = keq b c.
  Proof.
    intros a b c H. destruct (keq b c) eqn:E.
    - eapply keq_trans; eauto.
    - destruct (keq a c) eqn:E2; auto.
      rewrite keq_sym in H. assert (keq b c = true) by (eapply keq_trans; eauto). congruence.
  Qed.

  (** ** Probe sequence *)
  Fixpoint probe (rc : N) (h : N) (n : nat) : N * N :=
    match n with
    | O => (h, 0)
    | S n' => probe_next rc (probe rc h n')
    end.

  Lemma probe_snd : forall rc h n, snd (probe rc h n) = N.of_nat n.
  Proof.
    induction n; simpl; auto. destruct (probe rc h n) as [x i] eqn:E.
    simpl in *. rewrite IHn. lia.
  Qed.

  Definition non_empty (rs : list row) (x : N) : Prop :=
    exists r, row_at rs x = Some r /\ r <> Empty.

  (** Position [x] is reached by probing for hash [h]: all earlier probes hit
      non-empty rows. *)
  Definition reach (rs : list row) (rc h x : N) : Prop :=
    exists n, fst (probe rc (h mod rc) n) = x /\
      forall m, (m < n)%nat -> non_empty rs (fst (probe rc (h mod rc) m)).

  Definition is_active (r : row) : bool := match r with Active _ _ => true | _ => false end.
  Definition is_deleted (r : row) : bool := match r with Deleted => true | _ => false end.

  Definition nactive (rs : list row) : nat := length (filter is_active rs).
  Definition ndeleted (rs : list row) : nat := length (filter is_deleted rs).

  Definition rows_inv (rs : list row) (rc : N) : Prop :=
    length rs = N.to_nat rc /\
    (forall x y k v k' v', row_at rs x = Some (Active k v) -> row_at rs y = Some (Active k' v') ->
        keq k k' = true -> x = y) /\
    (forall x k v, row_at rs x = Some (Active k v) -> reach rs rc (hash k) x).

  (** ** Correctness of Find *)
  Lemma find_loop_spec : forall fuel rs rc k fd n x st,
    (forall m, (m < n)%nat -> non_empty rs (fst (probe rc (hash k mod rc) m))) ->
    (forall m k' v', (m < n)%nat -> row_at rs (fst (probe rc (hash k mod rc) m)) = Some (Active k' v') -> keq k' k = false) ->
    (forall d, fd = Some d -> row_at rs d = Some Deleted /\ reach rs rc (hash k) d) ->
    find_loop fuel rs rc k fd (probe rc (hash k mod rc) n) = Ok (x, st) ->
    reach rs rc (hash k) x /\
    match st with
    | FActive => exists k' v', row_at rs x = Some (Active k' v') /\ keq k' k = true
    | FEmpty => row_at rs x = Some Empty
    | FDeleted => row_at rs x = Some Deleted
    end /\
    (st <> FActive -> forall y k' v', rows_inv rs rc -> row_at rs y = Some (Active k' v') -> keq k' k = false).
  Proof.
    induction fuel; intros rs rc k fd n x st Hne Hneq Hfd Hrun; simpl in Hrun; [discriminate|].
    destruct (row_at rs (fst (probe rc (hash k mod rc) n))) as [r|] eqn:Hr; [|discriminate].
    assert (Habs : r = Empty -> forall y k' v', rows_inv rs rc -> row_at rs y = Some (Active k' v') -> keq k' k = false).
    { intros -> y k' v' (Hlen & Huniq & Hreach) Hy.
      destruct (keq k' k) eqn:Hk; auto. exfalso.
      destruct (Hreach _ _ _ Hy) as (m & Hm1 & Hm2).
      rewrite (Hhash _ _ Hk) in Hm1, Hm2.
      destruct (Nat.lt_trichotomy m n) as [Hlt|[Heq|Hgt]].
      - rewrite <- Hm1 in Hy. rewrite (Hneq _ _ _ Hlt Hy) in Hk. discriminate.
      - subst m. rewrite Hm1 in Hr. congruence.
      - destruct (Hm2 _ Hgt) as (r' & Hr1 & Hr2). congruence. }
    destruct r as [| |k' v'].
    - destruct fd as [d|].
      + inversion Hrun; subst. destruct (Hfd _ eq_refl). split; [auto|]. split; [auto|].
        intros _. apply Habs. reflexivity.
      + inversion Hrun; subst. split; [exists n; auto|]. split; [auto|].
        intros _. apply Habs. reflexivity.
    - apply (IHfuel rs rc k _ (S n)) in Hrun; auto.
      + intros m Hm. destruct (Nat.eq_dec m n) as [->|]; [exists Deleted; split; auto; discriminate|apply Hne; lia].
      + intros m k' v' Hm Hrow. destruct (Nat.eq_dec m n) as [->|]; [congruence|]. apply (Hneq m k' v'); auto; lia.
      + intros d Hd. destruct fd as [d0|]; inversion Hd; subst; auto.
        split; auto. exists n; auto.
    - destruct (keq k' k) eqn:Hk.
      + inversion Hrun; subst. split; [exists n; auto|]. split; [eauto|congruence].
      + apply (IHfuel rs rc k _ (S n)) in Hrun; auto.
        * intros m Hm. destruct (Nat.eq_dec m n) as [->|]; [eexists; split; eauto; discriminate|apply Hne; lia].
        * intros m k2 v2 Hm Hrow. destruct (Nat.eq_dec m n) as [->|]; [congruence|]. apply (Hneq m k2 v2); auto; lia.
  Qed.

  Lemma find_spec : forall rs rc k x st,
    rows_inv rs rc ->
    find rs rc k = Ok (x, st) ->
    reach rs rc (hash k) x /\
    match st with
    | FActive => exists k' v', row_at rs x = Some (Active k' v') /\ keq k' k = true
    | FEmpty => row_at rs x = Some Empty
    | FDeleted => row_at rs x = Some Deleted
    end /\
    (st <> FActive -> forall y k' v', row_at rs y = Some (Active k' v') -> keq k' k = false).
  Proof.
    intros rs rc k x st Hinv H. unfold HashTable_Model.find in H.
    destruct (rc =? 0); [discriminate|].
    apply (find_loop_spec _ rs rc k None 0%nat) in H.
    - destruct H as (H1 & H2 & H3). split; auto. split; auto. intros; eapply H3; eauto.
    - intros; lia.
    - intros; lia.
    - intros; discriminate.
  Qed.

  (** Find cannot run out of fuel: after rowCount + 1 probes the index has left
      the table. *)
  Lemma probe_escape : forall rc h n, 0 < rc ->
    (N.to_nat rc < n)%nat -> rc <= fst (probe rc h n).
  Proof.
    intros rc h n Hrc Hn. destruct n as [|n]; [lia|]. cbn [probe].
    assert (Hs := probe_snd rc h n). destruct (probe rc h n) as [x i]. cbn [snd] in Hs. subst i.
    unfold probe_next. cbv zeta.
    destruct (rc <=? x + (2 * (N.of_nat n + 1) - 1)) eqn:E; cbn [fst].
    - lia.
    - apply N.leb_gt in E. lia.
  Qed.

  Lemma find_loop_fuel : forall fuel rs rc k fd n,
    0 < rc -> length rs = N.to_nat rc ->
    (N.to_nat rc + 2 <= fuel + n)%nat -> (n <= N.to_nat rc + 1)%nat ->
    find_loop fuel rs rc k fd (probe rc (hash k mod rc) n) <> NoFuel.
  Proof.
    induction fuel; intros rs rc k fd n Hrc Hlen Hf Hn; [lia|].
    simpl. destruct (row_at rs (fst (probe rc (hash k mod rc) n))) as [r|] eqn:E; [|discriminate].
    assert (Hlt : (n < N.to_nat rc + 1)%nat).
    { destruct (Nat.eq_dec n (N.to_nat rc + 1)) as [->|]; [|lia].
      assert (rc <= fst (probe rc (hash k mod rc) (N.to_nat rc + 1))) by (apply probe_escape; lia).
      unfold HashTable_Model.row_at in E.
      assert (nth_error rs (N.to_nat (fst (probe rc (hash k mod rc) (N.to_nat rc + 1)))) <> None) by congruence.
      apply nth_error_Some in H0. lia. }
    assert (Hrec : forall fd', find_loop fuel rs rc k fd' (probe_next rc (probe rc (hash k mod rc) n)) <> NoFuel).
    { intros fd'. apply (IHfuel rs rc k fd' (S n)); auto; lia. }
    destruct r; auto.
    - destruct fd; discriminate.
    - destruct (keq k0 k); [discriminate|auto].
  Qed.

  Lemma find_not_fatal : forall rs rc k, find rs rc k <> Fatal.
  Proof.
    intros rs rc k. unfold HashTable_Model.find. destruct (rc =? 0); [discriminate|].
    generalize (N.to_nat rc + 2)%nat (@None N) (hash k mod rc, 0).
    induction n; intros o p; simpl; [discriminate|].
    destruct (row_at rs (fst p)) as [r|]; [|discriminate]. destruct r; auto.
    - destruct o; discriminate.
    - destruct (keq k0 k); [discriminate|auto].
  Qed.

  Lemma find_no_nofuel : forall rs rc k, length rs = N.to_nat rc -> find rs rc k <> NoFuel.
  Proof.
    intros rs rc k Hlen. unfold HashTable_Model.find.
    destruct (rc =? 0) eqn:E; [discriminate|]. apply N.eqb_neq in E.
    apply (find_loop_fuel _ rs rc k None 0%nat); lia.
  Qed.

  (** ** Effect of writing a row *)
  Lemma row_at_write_eq : forall rs x r r0, row_at rs x = Some r0 -> row_at (write_row rs x r) x = Some r.
  Proof.
    intros. unfold HashTable_Model.row_at, HashTable_Model.write_row in *.
    apply nth_error_upd_eq. apply nth_error_Some. congruence.
  Qed.
  Lemma row_at_write_neq : forall rs x y r, x <> y -> row_at (write_row rs x r) y = row_at rs y.
  Proof.
    intros. unfold HashTable_Model.row_at, HashTable_Model.write_row.
    apply nth_error_upd_neq. lia.
  Qed.
  Lemma non_empty_write : forall rs x y r, r <> Empty -> non_empty rs y -> non_empty (write_row rs x r) y.
  Proof.
    intros rs x y r Hr (r0 & H1 & H2). destruct (N.eq_dec x y) as [->|].
    - exists r. split; auto. eapply row_at_write_eq; eauto.
    - exists r0. split; auto. rewrite row_at_write_neq; auto.
  Qed.
  Lemma reach_write : forall rs rc h x y r, r <> Empty -> reach rs rc h y -> reach (write_row rs x r) rc h y.
  Proof.
    intros rs rc h x y r Hr (n & H1 & H2). exists n. split; auto.
    intros. apply non_empty_write; auto.
  Qed.
  Lemma write_row_length : forall rs x r, length (write_row rs x r) = length rs.
  Proof. intros. apply upd_length. Qed.

  Lemma row_at_split : forall rs x r0 r, row_at rs x = Some r0 ->
    exists l1 l2, rs = l1 ++ r0 :: l2 /\ write_row rs x r = l1 ++ r :: l2.
  Proof.
    intros. destruct (upd_split _ _ _ r _ H) as (l1 & l2 & ? & ? & ?). eauto.
  Qed.

  Lemma active_rows_app : forall (l1 l2 : list row), active_rows (l1 ++ l2) = active_rows l1 ++ active_rows l2.
  Proof. induction l1 as [|[] l1]; simpl; intros; auto. f_equal; auto. Qed.

  Lemma active_rows_length : forall rs : list row, length (active_rows rs) = nactive rs.
  Proof. induction rs as [|[] rs]; simpl; auto. unfold nactive in *. simpl. lia. Qed.

  Lemma active_rows_in : forall rs k v, In (k, v) (active_rows rs) <-> exists x, row_at rs x = Some (Active k v).
  Proof.
    intros rs k v. transitivity (In (Active k v) rs).
    - induction rs as [|[] rs]; simpl; try tauto.
      + rewrite IHrs. split; [auto|intros [H|H]; auto; discriminate].
      + rewrite IHrs. split; [auto|intros [H|H]; auto; discriminate].
      + rewrite IHrs. split; (intros [H|H]; [left; congruence|auto]).
    - split.
      + intros H. apply In_nth_error in H. destruct H as (n & Hn). exists (N.of_nat n).
        unfold HashTable_Model.row_at. rewrite Nnat.Nat2N.id. auto.
      + intros (x & Hx). eapply nth_error_In; eauto.
  Qed.

  Lemma nactive_app : forall l1 l2, nactive (l1 ++ l2) = (nactive l1 + nactive l2)%nat.
  Proof. intros. unfold nactive. rewrite filter_app, app_length. auto. Qed.
  Lemma ndeleted_app : forall l1 l2, ndeleted (l1 ++ l2) = (ndeleted l1 + ndeleted l2)%nat.
  Proof. intros. unfold ndeleted. rewrite filter_app, app_length. auto. Qed.
  Lemma nactive_cons : forall r l, nactive (r :: l) = ((if is_active r then 1 else 0) + nactive l)%nat.
  Proof. intros. unfold nactive. simpl. destruct (is_active r); auto. Qed.
  Lemma ndeleted_cons : forall r l, ndeleted (r :: l) = ((if is_deleted r then 1 else 0) + ndeleted l)%nat.
  Proof. intros. unfold ndeleted. simpl. destruct (is_deleted r); auto. Qed.

  (** ** Table invariant *)
  Record tinv0 (t : table) (rs : list row) : Prop := {
    ti_rows : rows t = Some rs;
    ti_inv : rows_inv rs (rowCount t);
    ti_size : In (rowCount t, maxActive t) hash_table_sizes;
    ti_active : activeCount t = N.of_nat (nactive rs);
    ti_deleted : deletedCount t = N.of_nat (ndeleted rs)
  }.

  Definition load_ok (t : table) : Prop := activeCount t + deletedCount t < maxActive t.

  Inductive tinv (t : table) : Prop :=
  | tinv_null : t = table_init -> tinv t
  | tinv_alloc : forall rs, tinv0 t rs -> load_ok t -> tinv t.

  Lemma rows_inv_insert : forall rs rc x k v r0,
    rows_inv rs rc -> row_at rs x = Some r0 -> is_active r0 = false ->
    reach rs rc (hash k) x ->
    (forall y k' v', row_at rs y = Some (Active k' v') -> keq k' k = false) ->
    rows_inv (write_row rs x (Active k v)) rc.
  Proof.
    intros rs rc x k v r0 (Hlen & Huniq & Hreach) Hx Hr0 Hr Hno.
    split; [rewrite write_row_length; auto|]. split.
    - intros y z k1 v1 k2 v2 Hy Hz Hk.
      destruct (N.eq_dec x y) as [Exy|Hxy], (N.eq_dec x z) as [Exz|Hxz];
        try subst y; try subst z; try reflexivity.
      + rewrite (row_at_write_eq _ _ _ _ Hx) in Hy. inversion Hy; subst.
        rewrite row_at_write_neq in Hz by auto. apply Hno in Hz. rewrite keq_sym in Hz. congruence.
      + rewrite (row_at_write_eq _ _ _ _ Hx) in Hz. inversion Hz; subst.
        rewrite row_at_write_neq in Hy by auto. apply Hno in Hy. congruence.
      + rewrite row_at_write_neq in Hy, Hz by auto. eapply Huniq; eauto.
    - intros y k' v' Hy. apply reach_write; [discriminate|].
      destruct (N.eq_dec x y) as [->|Hxy].
      + rewrite (row_at_write_eq _ _ _ _ Hx) in Hy. inversion Hy; subst. auto.
      + rewrite row_at_write_neq in Hy by auto. eauto.
  Qed.

  Lemma rows_inv_update : forall rs rc x k v v0,
    rows_inv rs rc -> row_at rs x = Some (Active k v0) ->
    rows_inv (write_row rs x (Active k v)) rc.
  Proof.
    intros rs rc x k v v0 (Hlen & Huniq & Hreach) Hx.
    split; [rewrite write_row_length; auto|]. split.
    - intros y z k1 v1 k2 v2 Hy Hz Hk.
      assert (Hget : forall w kk vv, row_at (write_row rs x (Active k v)) w = Some (Active kk vv) ->
                exists vv', row_at rs w = Some (Active kk vv')).
      { intros w kk vv Hw. destruct (N.eq_dec x w) as [->|].
        - rewrite (row_at_write_eq _ _ _ _ Hx) in Hw. inversion Hw; subst. eauto.
        - rewrite row_at_write_neq in Hw by auto. eauto. }
      destruct (Hget _ _ _ Hy), (Hget _ _ _ Hz). eapply Huniq; eauto.
    - intros y k' v' Hy. apply reach_write; [discriminate|].
      destruct (N.eq_dec x y) as [->|Hxy].
      + rewrite (row_at_write_eq _ _ _ _ Hx) in Hy. inversion Hy; subst. eauto.
      + rewrite row_at_write_neq in Hy by auto. eauto.
  Qed.

  Lemma rows_inv_delete : forall rs rc x k v,
    rows_inv rs rc -> row_at rs x = Some (Active k v) ->
    rows_inv (write_row rs x Deleted) rc.
  Proof.
    intros rs rc x k v (Hlen & Huniq & Hreach) Hx.
    assert (Hget : forall w kk vv, row_at (write_row rs x Deleted) w = Some (Active kk vv) ->
                row_at rs w = Some (Active kk vv)).
    { intros w kk vv Hw. destruct (N.eq_dec x w) as [->|].
      - rewrite (row_at_write_eq _ _ _ _ Hx) in Hw. discriminate.
      - rewrite row_at_write_neq in Hw by auto. eauto. }
    split; [rewrite write_row_length; auto|]. split.
    - intros y z k1 v1 k2 v2 Hy Hz Hk. eapply Huniq; eauto.
    - intros y k' v' Hy. apply reach_write; [discriminate|]. eauto.
  Qed.

  Lemma row_at_repeat : forall n x (r : row), row_at (repeat Empty n) x = Some r -> r = Empty.
  Proof.
    intros. apply nth_error_In in H. apply repeat_spec in H. auto.
  Qed.

  Lemma rows_inv_fresh : forall rc, rows_inv (repeat Empty (N.to_nat rc)) rc.
  Proof.
    intros. split; [apply repeat_length|]. split; intros.
    - apply row_at_repeat in H. discriminate.
    - apply row_at_repeat in H. discriminate.
  Qed.

  Lemma nactive_repeat : forall n, nactive (repeat Empty n) = 0%nat.
  Proof. induction n; auto. Qed.
  Lemma ndeleted_repeat : forall n, ndeleted (repeat Empty n) = 0%nat.
  Proof. induction n; auto. Qed.
  Lemma active_rows_repeat : forall n, active_rows (repeat (@Empty K V) n) = [].
  Proof. induction n; auto. Qed.

  (** ** Facts about sizes *)
  Lemma next_size_facts : forall rc s, next_size_in hash_table_sizes rc = Some s ->
    In s hash_table_sizes /\ rc < fst s.
  Proof.
    generalize hash_table_sizes. induction l; simpl; intros; [discriminate|].
    destruct (rc <? fst a) eqn:E.
    - inversion H; subst. apply N.ltb_lt in E. auto.
    - apply IHl in H. tauto.
  Qed.

  Lemma sizes_monotone : forall s1 s2, In s1 hash_table_sizes -> In s2 hash_table_sizes ->
    fst s1 < fst s2 -> snd s1 < snd s2.
  Proof.
    assert (H : forallb (fun s1 => forallb (fun s2 => implb (fst s1 <? fst s2) (snd s1 <? snd s2)) hash_table_sizes)
                   hash_table_sizes = true) by (vm_compute; reflexivity).
    intros s1 s2 H1 H2 Hlt. rewrite forallb_forall in H. specialize (H _ H1). cbv beta in H.
    rewrite forallb_forall in H. specialize (H _ H2). cbv beta in H.
    apply N.ltb_lt in Hlt. rewrite Hlt in H. cbn [implb] in H. apply N.ltb_lt in H. auto.
  Qed.

  Lemma sizes_positive : forall s, In s hash_table_sizes -> 0 < fst s /\ 1 < snd s.
  Proof.
    assert (H : forallb (fun s => (0 <? fst s) && (1 <? snd s)) hash_table_sizes = true) by (vm_compute; reflexivity).
    intros s Hs. rewrite forallb_forall in H. specialize (H _ Hs).
    apply andb_true_iff in H. destruct H as [Ha Hb].
    apply N.ltb_lt in Ha. apply N.ltb_lt in Hb. auto.
  Qed.

  (** ** Association list facts *)
  Notation amap_get := (amap_get K V keq).
  Notation amap_set := (amap_set K V keq).
  Notation amap_overwrite := (amap_overwrite K V keq).
  Notation amap_remove := (amap_remove K V keq).
  Notation amap_nodup := (amap_nodup K V keq).

  Lemma amap_get_none : forall m k, amap_get m k = None <-> (forall e, In e m -> keq (fst e) k = false).
  Proof.
    intros. split.
    - intros H e He. apply (find_none _ _ H _ He).
    - intros H. destruct (amap_get m k) eqn:E; auto. apply find_some in E.
      destruct E as [E1 E2]. rewrite H in E2; auto. discriminate.
  Qed.

  Lemma amap_nodup_in : forall m e1 e2, amap_nodup m -> In e1 m -> In e2 m ->
    keq (fst e1) (fst e2) = true -> e1 = e2.
  Proof.
    intros m e1 e2 H H1 H2 Hk.
    destruct (ForallOrdPairs_In H _ _ H1 H2) as [Heq|[Hf|Hf]]; auto; try congruence.
    rewrite keq_sym in Hf. congruence.
  Qed.

  Lemma amap_get_some : forall m k e, amap_nodup m ->
    (amap_get m k = Some e <-> In e m /\ keq (fst e) k = true).
  Proof.
    intros m k e Hnd. split.
    - intros H. apply find_some in H. auto.
    - intros [H1 H2]. destruct (amap_get m k) eqn:E.
      + apply find_some in E. destruct E as [E1 E2]. f_equal.
        eapply amap_nodup_in; eauto. rewrite keq_sym in H2. eapply keq_trans; eauto.
      + rewrite (proj1 (amap_get_none _ _) E _ H1) in H2. discriminate.
  Qed.

  Lemma amap_nodup_perm : forall m m', Permutation m m' -> amap_nodup m -> amap_nodup m'.
  Proof.
    induction 1; intros Hn; auto.
    - inversion Hn as [|e0 l0 Hf Hl]; subst. constructor; [|apply IHPermutation; auto].
      apply Forall_forall. intros e He. rewrite Forall_forall in Hf. apply Hf.
      eapply Permutation_in; [apply Permutation_sym; eauto|auto].
    - inversion Hn as [|e0 l0 Hf Hl]; subst. inversion Hl as [|e1 l1 Hf1 Hl1]; subst.
      inversion Hf as [|e2 l2 Hf2 Hl2]; subst.
      constructor; [constructor; auto|constructor; auto].
      rewrite keq_sym; auto.
  Qed.

  Lemma amap_get_perm : forall m m' k, amap_nodup m -> Permutation m m' -> amap_get m k = amap_get m' k.
  Proof.
    intros m m' k Hn Hp. destruct (amap_get m k) eqn:E.
    - symmetry. apply amap_get_some; [eapply amap_nodup_perm; eauto|].
      apply amap_get_some in E; auto. destruct E. split; auto. eapply Permutation_in; eauto.
    - symmetry. apply amap_get_none. intros e He. rewrite amap_get_none in E. apply E.
      eapply Permutation_in; [apply Permutation_sym; eauto|auto].
  Qed.

  Lemma amap_overwrite_perm : forall m m' k v, Permutation m m' -> Permutation (amap_overwrite m k v) (amap_overwrite m' k v).
  Proof. intros. apply Permutation_map. auto. Qed.

  Lemma amap_remove_perm : forall m m' k, Permutation m m' -> Permutation (amap_remove m k) (amap_remove m' k).
  Proof.
    induction 1; simpl; auto.
    - destruct (keq (fst x) k); simpl; auto.
    - destruct (keq (fst x) k), (keq (fst y) k); simpl; auto. constructor.
    - eapply Permutation_trans; eauto.
  Qed.

  Lemma amap_set_perm : forall m m' k v, amap_nodup m -> Permutation m m' -> Permutation (amap_set m k v) (amap_set m' k v).
  Proof.
    intros. unfold HashTable_Spec.amap_set. rewrite (amap_get_perm m m' k); auto.
    destruct (amap_get m' k); auto. apply amap_overwrite_perm; auto.
  Qed.

  Lemma amap_overwrite_none : forall m k v, (forall e, In e m -> keq (fst e) k = false) -> amap_overwrite m k v = m.
  Proof.
    induction m; simpl; intros; auto. rewrite (H a) by auto. f_equal. apply IHm; auto.
  Qed.

  Lemma amap_remove_none : forall m k, (forall e, In e m -> keq (fst e) k = false) -> amap_remove m k = m.
  Proof.
    induction m; simpl; intros; auto. rewrite (H a) by auto. simpl. f_equal. apply IHm; auto.
  Qed.

  Lemma amap_overwrite_nodup : forall m k v, amap_nodup m -> amap_nodup (amap_overwrite m k v).
  Proof.
    induction m; simpl; intros; auto. inversion H; subst. constructor; [|apply IHm; auto].
    apply Forall_forall. intros e He. unfold HashTable_Spec.amap_overwrite in He.
    apply in_map_iff in He. destruct He as (e0 & He & Hin).
    rewrite Forall_forall in H2. specialize (H2 _ Hin).
    subst e. destruct (keq (fst a) k), (keq (fst e0) k); simpl; auto.
  Qed.

  Lemma amap_set_nodup : forall m k v, amap_nodup m -> amap_nodup (amap_set m k v).
  Proof.
    intros. unfold HashTable_Spec.amap_set. destruct (amap_get m k) eqn:E.
    - apply amap_overwrite_nodup; auto.
    - constructor; auto. apply Forall_forall. intros e He. simpl.
      rewrite keq_sym. rewrite amap_get_none in E. auto.
  Qed.

  Lemma amap_add_nodup : forall m k v, amap_nodup m -> amap_nodup (amap_add K V keq m k v).
  Proof.
    intros. unfold HashTable_Spec.amap_add. destruct (amap_get m k) eqn:E; auto.
    constructor; auto. apply Forall_forall. intros e He. simpl.
    rewrite keq_sym. rewrite amap_get_none in E. auto.
  Qed.

  Lemma amap_remove_nodup : forall m k, amap_nodup m -> amap_nodup (amap_remove m k).
  Proof.
    induction m; simpl; intros; auto. inversion H; subst.
    destruct (keq (fst a) k); simpl; [apply IHm; auto|].
    constructor; [|apply IHm; auto]. apply Forall_forall. intros e He.
    apply filter_In in He. rewrite Forall_forall in H2. apply H2. tauto.
  Qed.

  Lemma enumerate_nodup : forall rs rc, rows_inv rs rc -> amap_nodup (active_rows rs).
  Proof.
    intros rs rc (_ & Huniq & _). clear - Huniq Hequiv. revert Huniq.
    induction rs as [|r rs]; intros; [constructor|].
    assert (Htl : amap_nodup (active_rows rs)).
    { apply IHrs. intros x y k v k' v' Hx Hy Hk.
      assert (x + 1 = y + 1); [|lia].
      apply (Huniq (x + 1) (y + 1) k v k' v'); auto;
        unfold HashTable_Model.row_at in *; rewrite N2Nat.inj_add, Nat.add_1_r; simpl; auto. }
    destruct r; simpl; auto. constructor; auto.
    apply Forall_forall. intros [k' v'] Hin. simpl. apply active_rows_in in Hin.
    destruct Hin as (x & Hx). destruct (keq k k') eqn:E; auto.
    assert (0 = x + 1); [|lia].
    eapply (Huniq 0 (x + 1)); eauto; unfold HashTable_Model.row_at in *; [reflexivity|].
    rewrite N2Nat.inj_add, Nat.add_1_r. simpl. eauto.
  Qed.

  (** ** Reinsertion *)

  (** Inserting into a table that has room: no resize happens. *)
  Lemma insert_depth_spec : forall d t rs k v p t' b,
    tinv0 t rs ->
    insert_depth K V hash keq (S d) t k v p = Ok (t', b) ->
    (* found *)
    (exists k' v', amap_get (active_rows rs) k = Some (k', v') /\
        ((p = InsertIfNotFound /\ t' = t /\ b = false) \/
         (p <> InsertIfNotFound /\ b = true /\ exists rs', tinv0 t' rs' /\
            activeCount t' = activeCount t /\ deletedCount t' = deletedCount t /\
            rowCount t' = rowCount t /\ maxActive t' = maxActive t /\
            active_rows rs' = amap_overwrite (active_rows rs) k v))) \/
    (* not found *)
    (amap_get (active_rows rs) k = None /\
        ((p = InsertIfFound /\ t' = t /\ b = false) \/
         (p <> InsertIfFound /\ b = true /\ exists t2 rs2, tinv0 t2 rs2 /\
            rowCount t2 = rowCount t /\ maxActive t2 = maxActive t /\
            activeCount t2 = activeCount t + 1 /\
            (deletedCount t2 = deletedCount t \/ deletedCount t2 + 1 = deletedCount t) /\
            Permutation (active_rows rs2) ((k, v) :: active_rows rs) /\
            resize_and_rehash K V (insert_depth K V hash keq d) t2 = Ok t'))).
  Proof.
    intros d t rs k v p t' b [Hrows Hinv Hsize Hact Hdel] H.
    cbn [insert_depth] in H. rewrite Hrows in H. cbn [obind] in H. rewrite Hrows in H.
    apply obind_ok in H. destruct H as ((x & st) & Hfind & H).
    destruct (find_spec _ _ _ _ _ Hinv Hfind) as (Hreach & Hst & Hno).
    assert (Hnd := enumerate_nodup _ _ Hinv).
    destruct st.
    - (* empty *)
      right. rewrite Hst in H. cbv beta iota in H.
      assert (Hnone : amap_get (active_rows rs) k = None).
      { apply amap_get_none. intros [k' v'] He. apply active_rows_in in He. destruct He. simpl.
        eapply Hno; eauto. discriminate. }
      split; auto.
      destruct p; [right|left; inversion H; auto|right];
        (split; [discriminate|]);
        apply obind_ok in H; destruct H as (t3 & Hres & H); inversion H; subst;
        (split; auto);
        (eexists; exists (write_row rs x (Active k v)); split; [|split; [|split; [|split; [|split; [|split]]]]]);
        try exact Hres; try reflexivity; simpl; auto;
        try (destruct (row_at_split _ _ _ (Active k v) Hst) as (l1 & l2 & -> & ->);
             rewrite !active_rows_app; simpl; apply Permutation_sym, Permutation_middle);
        (constructor; simpl; auto;
         [ eapply rows_inv_insert; eauto; intros; eapply Hno; eauto; discriminate
         | destruct (row_at_split _ _ _ (Active k v) Hst) as (l1 & l2 & E1 & E2); unfold HashTable_Model.write_row in *; rewrite E2;
           rewrite E1 in Hact; rewrite Hact, !nactive_app, !nactive_cons; simpl; lia
         | destruct (row_at_split _ _ _ (Active k v) Hst) as (l1 & l2 & E1 & E2); unfold HashTable_Model.write_row in *; rewrite E2;
           rewrite E1 in Hdel; rewrite Hdel, !ndeleted_app, !ndeleted_cons; simpl; lia]).
    - (* deleted *)
      right. rewrite Hst in H. cbv beta iota in H.
      assert (Hnone : amap_get (active_rows rs) k = None).
      { apply amap_get_none. intros [k' v'] He. apply active_rows_in in He. destruct He. simpl.
        eapply Hno; eauto. discriminate. }
      split; auto.
      assert (Hd1 : (0 < ndeleted rs)%nat).
      { destruct (row_at_split _ _ _ (Active k v) Hst) as (l1 & l2 & E1 & E2).
        rewrite E1, ndeleted_app, ndeleted_cons. simpl. lia. }
      destruct p; [right|left; inversion H; auto|right];
        (split; [discriminate|]);
        apply obind_ok in H; destruct H as (t3 & Hres & H); inversion H; subst;
        (split; auto);
        (eexists; exists (write_row rs x (Active k v)); split; [|split; [|split; [|split; [|split; [|split]]]]]);
        try exact Hres; try reflexivity; simpl; auto;
        try (right; lia);
        try (destruct (row_at_split _ _ _ (Active k v) Hst) as (l1 & l2 & -> & ->);
             rewrite !active_rows_app; simpl; apply Permutation_sym, Permutation_middle);
        (constructor; simpl; auto;
         [ eapply rows_inv_insert; eauto; intros; eapply Hno; eauto; discriminate
         | destruct (row_at_split _ _ _ (Active k v) Hst) as (l1 & l2 & E1 & E2); unfold HashTable_Model.write_row in *; rewrite E2;
           rewrite E1 in Hact; rewrite Hact, !nactive_app, !nactive_cons; simpl; lia
         | destruct (row_at_split _ _ _ (Active k v) Hst) as (l1 & l2 & E1 & E2); unfold HashTable_Model.write_row in *; rewrite E2;
           rewrite E1 in Hdel; rewrite Hdel, !ndeleted_app, !ndeleted_cons; simpl; lia]).
    - (* active *)
      left. destruct Hst as (k' & v' & Hst & Hk). rewrite Hst in H. cbv beta iota in H.
      exists k', v'. split.
      { apply amap_get_some; auto. split; auto. apply active_rows_in. eauto. }
      assert (Hother : forall l1 l2, rs = l1 ++ Active k' v' :: l2 ->
                amap_overwrite (active_rows rs) k v = active_rows l1 ++ (k', v) :: active_rows l2).
      { intros l1 l2 E. rewrite E, active_rows_app. simpl.
        unfold HashTable_Spec.amap_overwrite. rewrite map_app. simpl. rewrite Hk.
        assert (Hn2 : amap_nodup (active_rows l1 ++ (k', v') :: active_rows l2)).
        { rewrite E, active_rows_app in Hnd. exact Hnd. }
        apply (amap_nodup_perm _ ((k', v') :: active_rows l1 ++ active_rows l2)) in Hn2;
          [|apply Permutation_sym, Permutation_middle].
        inversion Hn2; subst. rewrite Forall_forall in H2.
        assert (Hall : forall e, In e (active_rows l1 ++ active_rows l2) -> keq (fst e) k = false).
        { intros e He. specialize (H2 _ He). simpl in H2.
          rewrite keq_sym. rewrite <- (keq_cong_l k' k); auto. }
        f_equal; [|f_equal]; apply amap_overwrite_none; intros; apply Hall; apply in_or_app; auto. }
      destruct p; [right|right|left; inversion H; auto];
        (split; [discriminate|]); inversion H; subst; (split; [auto|]);
        (exists (write_row rs x (Active k' v)); simpl; split; [|repeat split; auto]);
        try (destruct (row_at_split _ _ _ (Active k' v) Hst) as (l1 & l2 & E1 & E2);
             rewrite E2, (Hother _ _ E1), active_rows_app; reflexivity);
        (constructor; simpl; auto;
         [ eapply rows_inv_update; eauto
         | destruct (row_at_split _ _ _ (Active k' v) Hst) as (l1 & l2 & E1 & E2); unfold HashTable_Model.write_row in *; rewrite E2;
           rewrite E1 in Hact; rewrite Hact, !nactive_app, !nactive_cons; simpl; lia
         | destruct (row_at_split _ _ _ (Active k' v) Hst) as (l1 & l2 & E1 & E2); unfold HashTable_Model.write_row in *; rewrite E2;
           rewrite E1 in Hdel; rewrite Hdel, !ndeleted_app, !ndeleted_cons; simpl; lia]).
  Qed.

  Lemma resize_noop : forall ins t, load_ok t -> resize_and_rehash K V ins t = Ok t.
  Proof.
    intros. unfold resize_and_rehash. unfold load_ok in H.
    apply N.ltb_lt in H. rewrite H. auto.
  Qed.

  Lemma reinsert_spec : forall d old t rs t',
    tinv0 t rs ->
    deletedCount t = 0 ->
    activeCount t + N.of_nat (nactive old) < maxActive t ->
    amap_nodup (active_rows old ++ active_rows rs) ->
    reinsert K V (insert_depth K V hash keq (S d)) old t = Ok t' ->
    exists rs', tinv0 t' rs' /\ deletedCount t' = 0 /\ load_ok t' /\
      rowCount t' = rowCount t /\ maxActive t' = maxActive t /\
      Permutation (active_rows rs') (active_rows old ++ active_rows rs).
  Proof.
    induction old as [|r old]; intros t rs t' Hinv Hdc Hroom Hnd H.
    - simpl in H. inversion H; subst. exists rs. split; auto. repeat split; auto.
      unfold load_ok. simpl in Hroom. change (nactive []) with 0%nat in Hroom. lia.
    - destruct r as [| |k v].
      + simpl in H. apply (IHold t rs) in H; auto.
      + simpl in H. apply (IHold t rs) in H; auto.
      + cbn [reinsert] in H. apply obind_ok in H. destruct H as ([t1 b] & Hins & H).
        rewrite nactive_cons in Hroom. simpl in Hroom. simpl active_rows in Hnd.
        inversion Hnd as [|e l Hfa Hnd']; subst.
        destruct (insert_depth_spec _ _ _ _ _ _ _ _ Hinv Hins) as
          [(k' & v' & Hget & _)|(Hget & [(Hp & _)|(_ & Hb & t2 & rs2 & Hinv2 & Hrc & Hma & Hac & Hdc2 & Hperm & Hres)])].
        * exfalso. apply find_some in Hget. destruct Hget as [Hin Hk].
          rewrite Forall_forall in Hfa. specialize (Hfa (k', v') (in_or_app _ _ _ (or_intror Hin))).
          simpl in *. rewrite keq_sym in Hfa. congruence.
        * discriminate.
        * assert (Hl : load_ok t2).
          { unfold load_ok. rewrite Hma, Hac. destruct Hdc2 as [->|Hx]; lia. }
          rewrite (resize_noop _ _ Hl) in Hres. inversion Hres; subst t1. simpl in H.
          apply (IHold t2 rs2) in H; auto.
          -- destruct H as (rs' & A1 & A2 & A3 & A4 & A5 & A6). exists rs'.
             repeat (split; [first [assumption|congruence]|]).
             eapply Permutation_trans; [exact A6|]. simpl.
             eapply Permutation_trans; [apply Permutation_app_head; exact Hperm|].
             apply Permutation_sym, Permutation_middle.
          -- destruct Hdc2; lia.
          -- rewrite Hac, Hma. lia.
          -- eapply amap_nodup_perm; [|exact Hnd].
             eapply Permutation_trans; [apply Permutation_middle|].
             apply Permutation_app_head. apply Permutation_sym. exact Hperm.
  Qed.

  Lemma resize_spec : forall d t rs t',
    tinv0 t rs ->
    activeCount t + deletedCount t <= maxActive t ->
    resize_and_rehash K V (insert_depth K V hash keq (S d)) t = Ok t' ->
    exists rs', tinv0 t' rs' /\ load_ok t' /\ Permutation (active_rows rs') (active_rows rs).
  Proof.
    intros d t rs t' Hinv Hle H.
    destruct (N.lt_ge_cases (activeCount t + deletedCount t) (maxActive t)) as [Hlt|Hge].
    - rewrite (resize_noop _ _ Hlt) in H. inversion H; subst. exists rs. auto.
    - unfold resize_and_rehash in H.
      assert (E : activeCount t + deletedCount t <? maxActive t = false) by (apply N.ltb_ge; auto).
      rewrite E in H. apply obind_ok in H. destruct H as ([rc ma] & Hsz & H).
      destruct Hinv as [Hrows Hri Hsize Hact Hdel]. rewrite Hrows in H.
      destruct (sizes_positive _ Hsize) as [Hp1 Hp2]. simpl in Hp1, Hp2.
      assert (Hnew : In (rc, ma) hash_table_sizes /\ activeCount t < ma).
      { destruct ((rowCount t =? 0) || (deletedCount t <? activeCount t)) eqn:Eg.
        - unfold next_hash_table_size in Hsz.
          destruct (next_size_in hash_table_sizes (rowCount t)) as [s|] eqn:En; [|discriminate].
          inversion Hsz; subst. destruct (next_size_facts _ _ En) as [Hi Hlt]. split; auto.
          assert (snd (rowCount t, maxActive t) < snd (rc, ma)) by (apply sizes_monotone; auto).
          simpl in H0. lia.
        - inversion Hsz; subst. split; auto. apply orb_false_iff in Eg. destruct Eg as [_ Eg].
          apply N.ltb_ge in Eg. lia. }
      destruct Hnew as [Hin Hroom].
      apply (reinsert_spec d rs _ (repeat Empty (N.to_nat rc))) in H.
      + destruct H as (rs' & A1 & A2 & A3 & A4 & A5 & A6). exists rs'. split; auto. split; auto.
        rewrite active_rows_repeat, app_nil_r in A6. auto.
      + constructor; simpl; auto.
        * apply rows_inv_fresh.
        * rewrite nactive_repeat. auto.
        * rewrite ndeleted_repeat. auto.
      + reflexivity.
      + simpl. rewrite <- Hact. lia.
      + rewrite active_rows_repeat, app_nil_r. eapply enumerate_nodup; eauto.
  Qed.

  (** ** Refinement of every operation *)
  (** [t] implements the finite map [m]. *)
  Definition refines (t : table) (m : list (K * V)) : Prop :=
    tinv t /\ Permutation (enumerate t) m.

  Lemma enumerate_tinv0 : forall t rs, tinv0 t rs -> enumerate t = active_rows rs.
  Proof. intros t rs []. unfold enumerate. rewrite ti_rows0. auto. Qed.

  Lemma enumerate_nd : forall t, tinv t -> amap_nodup (enumerate t).
  Proof.
    intros t [->|rs H _]; [constructor|].
    rewrite (enumerate_tinv0 _ _ H). destruct H. eapply enumerate_nodup; eauto.
  Qed.

  Lemma refines_nodup : forall t m, refines t m -> amap_nodup m.
  Proof. intros t m [H1 H2]. eapply amap_nodup_perm; eauto. apply enumerate_nd; auto. Qed.

  Lemma refines_init : refines table_init [].
  Proof. split; [left; auto|apply Permutation_refl]. Qed.

  Lemma insert_table_init : forall d k v p,
    insert_depth K V hash keq (S d) table_init k v p =
    insert_depth K V hash keq (S d)
      (mkTable (Some (repeat Empty (N.to_nat 11))) 0 0 11 5) k v p.
  Proof. reflexivity. Qed.

  Lemma first_table_inv : tinv0 (mkTable (Some (repeat Empty (N.to_nat 11))) 0 0 11 5) (repeat Empty (N.to_nat 11)).
  Proof.
    constructor.
    - reflexivity.
    - apply rows_inv_fresh.
    - left. reflexivity.
    - reflexivity.
    - reflexivity.
  Qed.

  Definition amap_insert (m : list (K * V)) k v (p : insert_policy) :=
    match p with
    | InsertAlways => amap_set m k v
    | InsertIfFound => amap_replace K V keq m k v
    | InsertIfNotFound => amap_add K V keq m k v
    end.

  Lemma insert_alloc_refines : forall t rs k v p t' b,
    tinv0 t rs -> load_ok t ->
    insert K V hash keq t k v p = Ok (t', b) ->
    tinv t' /\ Permutation (enumerate t') (amap_insert (active_rows rs) k v p) /\
    b = match amap_get (active_rows rs) k, p with
        | Some _, InsertIfNotFound => false
        | None, InsertIfFound => false
        | _, _ => true
        end.
  Proof.
    intros t rs k v p t' b Hinv Hload H. unfold insert in H.
    destruct (insert_depth_spec 1 _ _ _ _ _ _ _ Hinv H) as
      [(k' & v' & Hget & [(Hp & Ht & Hb)|(Hp & Hb & rs' & Hinv' & Ha & Hd & Hr & Hm & He)])|
       (Hget & [(Hp & Ht & Hb)|(Hp & Hb & t2 & rs2 & Hinv2 & Hrc & Hma & Hac & Hdc2 & Hperm & Hres)])].
    - subst. split; [eapply tinv_alloc; eauto|]. rewrite (enumerate_tinv0 _ _ Hinv).
      unfold amap_insert, amap_add. rewrite Hget. auto.
    - split; [eapply tinv_alloc; eauto; unfold load_ok in *; congruence|].
      rewrite (enumerate_tinv0 _ _ Hinv'), He. rewrite Hget.
      destruct p; try congruence; unfold amap_insert, HashTable_Spec.amap_set, amap_replace; try rewrite Hget; auto.
    - subst. split; [eapply tinv_alloc; eauto|]. rewrite (enumerate_tinv0 _ _ Hinv), Hget.
      unfold amap_insert, amap_replace. rewrite amap_overwrite_none; auto.
      apply amap_get_none; auto.
    - assert (Hle : activeCount t2 + deletedCount t2 <= maxActive t2).
      { unfold load_ok in Hload. rewrite Hma, Hac. destruct Hdc2; lia. }
      destruct (resize_spec _ _ _ _ Hinv2 Hle Hres) as (rs' & Hinv' & Hl' & Hp').
      split; [eapply tinv_alloc; eauto|]. rewrite (enumerate_tinv0 _ _ Hinv').
        rewrite Hget. split; [|destruct p; congruence].
        eapply Permutation_trans; [exact Hp'|]. eapply Permutation_trans; [exact Hperm|].
        destruct p; try congruence; unfold amap_insert, HashTable_Spec.amap_set, amap_add; rewrite Hget; auto.
  Qed.

  Lemma amap_insert_perm : forall m m' k v p, amap_nodup m -> Permutation m m' ->
    Permutation (amap_insert m k v p) (amap_insert m' k v p).
  Proof.
    intros. destruct p; simpl.
    - apply amap_set_perm; auto.
    - apply amap_overwrite_perm; auto.
    - unfold amap_add. rewrite (amap_get_perm m m' k); auto. destruct (amap_get m' k); auto.
  Qed.

  Lemma insert_refines : forall t m k v p t' b,
    refines t m ->
    insert K V hash keq t k v p = Ok (t', b) ->
    refines t' (amap_insert m k v p) /\
    b = match amap_get m k, p with
        | Some _, InsertIfNotFound => false
        | None, InsertIfFound => false
        | _, _ => true
        end.
  Proof.
    intros t m k v p t' b [[->|rs Hinv Hload] Hperm] H.
    - unfold insert in H. rewrite insert_table_init in H.
      assert (m = []) by (apply Permutation_nil; exact Hperm). subst m.
      apply (insert_alloc_refines _ _ _ _ _ _ _ first_table_inv) in H; [|unfold load_ok; simpl; lia].
      rewrite active_rows_repeat in H. destruct H as (A & B & C). split; [split|]; auto.
    - apply (insert_alloc_refines _ _ _ _ _ _ _ Hinv Hload) in H.
      destruct H as (A & B & C). rewrite (enumerate_tinv0 _ _ Hinv) in Hperm.
      assert (Hnd : amap_nodup (active_rows rs)) by (destruct Hinv; eapply enumerate_nodup; eauto).
      split; [split|]; auto.
      + eapply Permutation_trans; [exact B|]. apply amap_insert_perm; auto.
      + rewrite (amap_get_perm _ m k) in C; auto.
  Qed.

  Lemma active_zero : forall t rs, tinv0 t rs -> activeCount t = 0 -> active_rows rs = [].
  Proof.
    intros t rs [] H. assert (nactive rs = 0%nat) by lia.
    rewrite <- active_rows_length in H0. destruct (active_rows rs); auto. discriminate.
  Qed.

  Lemma lookup_refines : forall t m k r,
    refines t m ->
    lookup K V hash keq t k = Ok r -> r = amap_get m k.
  Proof.
    intros t m k r [[->|rs Hinv Hload] Hperm] H.
    - assert (m = []) by (apply Permutation_nil; exact Hperm). subst m. inversion H. auto.
    - rewrite (enumerate_tinv0 _ _ Hinv) in Hperm.
      assert (Hnd : amap_nodup (active_rows rs)) by (destruct Hinv; eapply enumerate_nodup; eauto).
      rewrite <- (amap_get_perm (active_rows rs) m); auto.
      unfold lookup in H. destruct (0 <? activeCount t) eqn:E.
      + destruct Hinv as [Hrows Hri Hsize Hact Hdel]. rewrite Hrows in H.
        apply obind_ok in H. destruct H as ([x st] & Hfind & H).
        destruct (find_spec _ _ _ _ _ Hri Hfind) as (_ & Hst & Hno). simpl in H.
        assert (Hnone : st <> FActive -> amap_get (active_rows rs) k = None).
        { intros Hs. apply amap_get_none. intros [k' v'] He. apply active_rows_in in He. destruct He. simpl.
          eapply Hno; eauto. }
        destruct st.
        * inversion H; subst. rewrite Hnone; auto. discriminate.
        * inversion H; subst. rewrite Hnone; auto. discriminate.
        * destruct Hst as (k' & v' & Hst & Hk). rewrite Hst in H. inversion H; subst.
          symmetry. apply amap_get_some; auto. split; auto. apply active_rows_in. eauto.
      + apply N.ltb_ge in E. rewrite (active_zero _ _ Hinv) by lia. inversion H. auto.
  Qed.

  Lemma remove_refines : forall t m k t',
    refines t m ->
    remove K V hash keq t k = Ok t' -> refines t' (amap_remove m k).
  Proof.
    intros t m k t' [[->|rs Hinv Hload] Hperm] H.
    - assert (m = []) by (apply Permutation_nil; exact Hperm). subst m. inversion H. apply refines_init.
    - unfold remove in H. destruct (0 <? activeCount t) eqn:E.
      + assert (Hinv0 := Hinv). destruct Hinv as [Hrows Hri Hsize Hact Hdel]. rewrite Hrows in H.
        apply obind_ok in H. destruct H as ([x st] & Hfind & H).
        destruct (find_spec _ _ _ _ _ Hri Hfind) as (_ & Hst & Hno). simpl in H.
        assert (Hnone : st <> FActive -> refines t (amap_remove m k)).
        { intros Hs. rewrite amap_remove_none.
          - split; auto. eapply tinv_alloc; eauto.
          - intros [k' v'] He. simpl.
            apply (Permutation_in _ (Permutation_sym Hperm)) in He.
            rewrite (enumerate_tinv0 _ _ Hinv0) in He. apply active_rows_in in He. destruct He.
            eapply Hno; eauto. }
        destruct st; try (inversion H; subst; apply Hnone; discriminate).
        destruct Hst as (k' & v' & Hst & Hk). inversion H; subst. clear H.
        destruct (row_at_split _ _ _ Deleted Hst) as (l1 & l2 & E1 & E2).
        assert (Hac : (0 < nactive rs)%nat).
        { rewrite E1, nactive_app, nactive_cons. simpl. lia. }
        rewrite (enumerate_tinv0 _ _ Hinv0) in Hperm.
        split.
        * eapply (tinv_alloc _ (write_row rs x Deleted)).
          -- constructor; simpl; auto.
             ++ eapply rows_inv_delete; eauto.
             ++ rewrite E2. rewrite E1 in Hact. rewrite Hact, !nactive_app, !nactive_cons. simpl. lia.
             ++ rewrite E2. rewrite E1 in Hdel. rewrite Hdel, !ndeleted_app, !ndeleted_cons. simpl. lia.
          -- unfold load_ok in *. simpl. lia.
        * unfold enumerate. simpl. rewrite E2, active_rows_app. simpl.
          apply (amap_remove_perm _ _ k) in Hperm.
          eapply Permutation_trans; [|exact Hperm].
          assert (Hn2 : amap_nodup (active_rows l1 ++ (k', v') :: active_rows l2)).
          { assert (Hnd := enumerate_nodup _ _ Hri). rewrite E1, active_rows_app in Hnd. exact Hnd. }
          apply (amap_nodup_perm _ ((k', v') :: active_rows l1 ++ active_rows l2)) in Hn2;
            [|apply Permutation_sym, Permutation_middle].
          inversion Hn2; subst. rewrite Forall_forall in H1.
          assert (Hall : forall e, In e (active_rows l1 ++ active_rows l2) -> keq (fst e) k = false).
          { intros e He. specialize (H1 _ He). simpl in H1.
            rewrite keq_sym. rewrite <- (keq_cong_l k' k); auto. }
          rewrite active_rows_app. simpl. unfold HashTable_Spec.amap_remove.
          rewrite filter_app. simpl. rewrite Hk. simpl.
          change (filter (fun e : K * V => negb (keq (fst e) k))) with (fun m => amap_remove m k).
          cbv beta. rewrite !amap_remove_none; auto; intros; apply Hall; apply in_or_app; auto.
      + inversion H; subst. apply N.ltb_ge in E.
        rewrite (enumerate_tinv0 _ _ Hinv) in Hperm.
        rewrite (active_zero _ _ Hinv) in Hperm by lia.
        apply Permutation_nil in Hperm. subst m. simpl.
        split; [eapply tinv_alloc; eauto|].
        rewrite (enumerate_tinv0 _ _ Hinv), (active_zero _ _ Hinv) by lia. auto.
  Qed.

  Lemma map_empty_repeat : forall rs : list row, map (fun _ => @Empty K V) rs = repeat Empty (length rs).
  Proof. induction rs; simpl; auto. f_equal; auto. Qed.

  Lemma remove_all_refines : forall t m, refines t m -> refines (remove_all t) [].
  Proof.
    intros t m [[->|rs Hinv Hload] Hperm].
    - apply refines_init.
    - destruct Hinv as [Hrows Hri Hsize Hact Hdel]. unfold remove_all. rewrite Hrows, map_empty_repeat.
      destruct Hri as (Hlen & _). rewrite Hlen. split.
      + eapply tinv_alloc.
        * constructor; simpl; auto; [apply rows_inv_fresh|rewrite nactive_repeat; auto|rewrite ndeleted_repeat; auto].
        * unfold load_ok. simpl. destruct (sizes_positive _ Hsize). simpl in *. lia.
      + unfold enumerate. simpl. rewrite active_rows_repeat. auto.
  Qed.

  Lemma count_refines : forall t m, refines t m -> count t = amap_count K V m.
  Proof.
    intros t m [[->|rs Hinv Hload] Hperm].
    - apply Permutation_nil in Hperm. subst. reflexivity.
    - unfold count, amap_count. rewrite <- (Permutation_length Hperm), (enumerate_tinv0 _ _ Hinv), active_rows_length.
      apply Hinv.
  Qed.

  (** ** Histories *)
  Notation amap_step := (amap_step K V keq).
  Notation amap_run := (amap_run K V keq).

  Lemma step_refines : forall t m o t' r,
    refines t m -> step K V hash keq t o = Ok (t', r) ->
    refines t' (fst (amap_step m o)) /\ r = snd (amap_step m o).
  Proof.
    intros t m o t' r Hr H. destruct o; simpl in H.
    - apply obind_ok in H. destruct H as ([t1 b] & H1 & H2). inversion H2; subst.
      apply (insert_refines _ _ _ _ _ _ _ Hr) in H1. simpl. tauto.
    - apply obind_ok in H. destruct H as ([t1 b] & H1 & H2). inversion H2; subst.
      apply (insert_refines _ _ _ _ _ _ _ Hr) in H1. simpl. tauto.
    - apply obind_ok in H. destruct H as ([t1 b] & H1 & H2). inversion H2; subst.
      apply (insert_refines _ _ _ _ _ _ _ Hr) in H1. simpl. tauto.
    - apply obind_ok in H. destruct H as (t1 & H1 & H2). inversion H2; subst.
      apply (remove_refines _ _ _ _ Hr) in H1. simpl. tauto.
    - inversion H; subst. simpl. split; auto. eapply remove_all_refines; eauto.
    - apply obind_ok in H. destruct H as (t1 & H1 & H2). inversion H2; subst.
      apply (lookup_refines _ _ _ _ Hr) in H1. subst. simpl. auto.
    - inversion H; subst. simpl. split; auto. f_equal. apply count_refines; auto.
  Qed.

  Lemma run_refines : forall os t m t' rs,
    refines t m -> run K V hash keq t os = Ok (t', rs) ->
    refines t' (fst (amap_run m os)) /\ rs = snd (amap_run m os).
  Proof.
    induction os; intros t m t' rs Hr H; simpl in H.
    - inversion H; subst. auto.
    - apply obind_ok in H. destruct H as ([t1 r1] & H1 & H2).
      apply obind_ok in H2. destruct H2 as ([t2 r2] & H2 & H3). inversion H3; subst. simpl in *.
      destruct (step_refines _ _ _ _ _ Hr H1) as [A B].
      destruct (IHos _ _ _ _ A H2) as [C D]. 
      destruct (amap_step m a) as [m1 x]. destruct (amap_run m1 os) as [m2 y] eqn:E. simpl in *.
      rewrite E in C, D. simpl in *. split; auto. congruence.
  Qed.

  Lemma run_app : forall os1 os2 t,
    run K V hash keq t (os1 ++ os2) =
    do tr <- run K V hash keq t os1;
    do tr' <- run K V hash keq (fst tr) os2;
    Ok (fst tr', snd tr ++ snd tr').
  Proof.
    induction os1; intros; simpl.
    - destruct (run K V hash keq t os2) as [[]| | |]; auto.
    - destruct (step K V hash keq t a) as [[t1 r1]| | |]; simpl; auto.
      rewrite IHos1. destruct (run K V hash keq t1 os1) as [[t2 r2]| | |]; simpl; auto.
      destruct (run K V hash keq t2 os2) as [[t3 r3]| | |]; simpl; auto.
  Qed.
End Proofs.
