(** Quadratic probing stays inside the table whenever the table size is prime. *)
Require Import Coq.NArith.NArith Coq.ZArith.ZArith Coq.Lists.List Coq.Bool.Bool Coq.Arith.Arith.
Require Import Coq.micromega.Lia Coq.Sorting.Permutation Coq.ZArith.Znumtheory.
Require Import Verif.Base Verif.HashTable_Model Verif.HashTable_Spec Verif.HashTable_Proofs.
Import ListNotations.

(** ** Primality by trial division *)
(** Linear search for a divisor up to the square root, with a Z measure turned
    into binary recursion to avoid large unary fuel. *)
Fixpoint no_div_pos (n : positive) (d p : Z) : bool * Z :=
  (* checks d, d+1, ..., n of them; returns flag and next d *)
  match n with
  | xH => (negb (p mod d =? 0)%Z, (d + 1)%Z)
  | xO m => let (b1, d1) := no_div_pos m d p in
            if b1 then no_div_pos m d1 p else (false, d1)
  | xI m => if (p mod d =? 0)%Z then (false, d)
            else let (b1, d1) := no_div_pos m (d + 1) p in
                 if b1 then no_div_pos m d1 p else (false, d1)
  end.

Lemma no_div_pos_spec : forall n d p, fst (no_div_pos n d p) = true ->
  snd (no_div_pos n d p) = (d + Zpos n)%Z /\
  forall x, (d <= x < d + Zpos n)%Z -> (p mod x <> 0)%Z.
Proof.
  induction n; intros d p H; cbn [no_div_pos] in *.
  - destruct (p mod d =? 0)%Z eqn:E; [discriminate|].
    destruct (no_div_pos n (d + 1) p) as [b1 d1] eqn:E1.
    destruct b1; [|discriminate].
    assert (A := IHn (d + 1)%Z p). rewrite E1 in A. cbn [fst snd] in A. destruct (A eq_refl) as [A1 A2].
    destruct (IHn _ _ H) as [B1 B2]. subst d1. split; [rewrite B1; lia|].
    intros x Hx. apply Z.eqb_neq in E.
    destruct (Z.eq_dec x d) as [->|]; auto.
    destruct (Z.lt_ge_cases x (d + 1 + Zpos n)); [apply A2; lia|apply B2; lia].
  - destruct (no_div_pos n d p) as [b1 d1] eqn:E1.
    destruct b1; [|discriminate].
    assert (A := IHn d p). rewrite E1 in A. cbn [fst snd] in A. destruct (A eq_refl) as [A1 A2].
    destruct (IHn _ _ H) as [B1 B2]. subst d1. split; [rewrite B1; lia|].
    intros x Hx.
    destruct (Z.lt_ge_cases x (d + Zpos n)); [apply A2; lia|apply B2; lia].
  - cbn [fst snd] in *. split; auto. intros x Hx.
    assert (x = d) by lia. subst. destruct (p mod d =? 0)%Z eqn:E; [discriminate|].
    apply Z.eqb_neq in E. auto.
Qed.

Definition is_prime_check (p : Z) : bool :=
  (3 <? p)%Z &&
  match Z.sqrt p with
  | Zpos s => fst (no_div_pos s 2 p)
  | _ => false
  end.

Lemma is_prime_check_correct : forall p, is_prime_check p = true -> prime p.
Proof.
  intros p H. unfold is_prime_check in H. apply andb_true_iff in H. destruct H as [H3 H].
  apply Z.ltb_lt in H3.
  destruct (Z.sqrt p) as [|s|s] eqn:Es; try discriminate.
  destruct (no_div_pos_spec _ _ _ H) as [_ Hd].
  assert (Hsq := Z.sqrt_spec p ltac:(lia)). rewrite Es in Hsq. cbv zeta in Hsq.
  destruct (prime_dec p) as [|Hnp]; auto. exfalso.
  apply not_prime_divide in Hnp; [|lia].
  destruct Hnp as (n & Hn & (m & Hm)).
  assert (Hm1 : (1 < m)%Z) by nia.
  (* the smaller of n, m is at most sqrt p *)
  destruct (Z.le_gt_cases n m).
  - assert (n * n <= p)%Z by nia. assert (n <= Zpos s)%Z by nia.
    apply (Hd n); [lia|]. rewrite Hm. apply Z_mod_mult.
  - assert (m * m <= p)%Z by nia. assert (m <= Zpos s)%Z by nia.
    apply (Hd m); [lia|]. rewrite Hm. rewrite Z.mul_comm. apply Z_mod_mult.
Qed.

Lemma sizes_prime : forall s, In s hash_table_sizes -> fst s <> 25%N ->
  prime (Z.of_N (fst s)).
Proof.
  assert (H : forallb (fun s => (fst s =? 25)%N || is_prime_check (Z.of_N (fst s))) hash_table_sizes = true)
    by (vm_compute; reflexivity).
  intros s Hs Hn. rewrite forallb_forall in H. specialize (H _ Hs). cbv beta in H.
  apply orb_true_iff in H. destruct H as [H|H].
  - apply N.eqb_eq in H. contradiction.
  - apply is_prime_check_correct; auto.
Qed.

Lemma sizes_half : forall s, In s hash_table_sizes -> fst s = (2 * snd s + 1)%N.
Proof.
  assert (H : forallb (fun s => (fst s =? 2 * snd s + 1)%N) hash_table_sizes = true)
    by (vm_compute; reflexivity).
  intros s Hs. rewrite forallb_forall in H. specialize (H _ Hs). cbv beta in H.
  apply N.eqb_eq in H. auto.
Qed.

Local Open Scope N_scope.

(** ** Closed form of the probe sequence *)
Lemma probe_closed : forall rc h n, 0 < rc -> h < rc -> 2 * N.of_nat n <= rc + 1 ->
  fst (probe rc h n) = (h + N.of_nat n * N.of_nat n) mod rc.
Proof.
  induction n; intros Hrc Hh Hn.
  - cbn [probe fst]. rewrite N.mul_0_l, N.add_0_r, N.mod_small; auto.
  - cbn [probe]. specialize (IHn Hrc Hh ltac:(lia)).
    assert (Hs := probe_snd rc h n). destruct (probe rc h n) as [x i]. cbn [snd fst] in Hs, IHn. subst i.
    unfold probe_next. cbv zeta.
    assert (Hx : x < rc) by (rewrite IHn; apply N.mod_lt; lia).
    assert (E : h + N.of_nat (S n) * N.of_nat (S n) =
                (h + N.of_nat n * N.of_nat n) + (2 * (N.of_nat n + 1) - 1)) by nia.
    rewrite E, <- N.add_mod_idemp_l by lia. rewrite <- IHn.
    assert (Hb : x + (2 * (N.of_nat n + 1) - 1) < 2 * rc) by lia.
    destruct (rc <=? x + (2 * (N.of_nat n + 1) - 1)) eqn:El; cbn [fst].
    + apply N.leb_le in El.
      assert (E2 : x + (2 * (N.of_nat n + 1) - 1) = (x + (2 * (N.of_nat n + 1) - 1) - rc) + 1 * rc) by lia.
      rewrite E2 at 2. rewrite N.mod_add by lia. rewrite N.mod_small; lia.
    + apply N.leb_gt in El. rewrite N.mod_small; auto.
Qed.

(** [cover rc ns]: the probe offsets of [ns] hit pairwise different rows. *)
Definition cover (rc : N) (ns : list nat) : Prop :=
  NoDup (map (fun n => (N.of_nat n * N.of_nat n) mod rc) ns) /\
  forall n, In n ns -> 2 * N.of_nat n <= rc.

Lemma prime_cover : forall rc, prime (Z.of_N rc) -> (exists q, rc = 2 * q + 1) ->
  cover rc (seq 0 (N.to_nat (rc / 2) + 1)).
Proof.
  intros rc Hp (q & Hq). assert (Hq2 : rc / 2 = q).
  { symmetry. apply (N.div_unique rc 2 q 1); lia. }
  rewrite Hq2.
  assert (H2 := prime_ge_2 _ Hp).
  split.
  - apply NoDup_map_in; [|apply seq_NoDup].
    intros a b Ha Hb E. apply in_seq in Ha. apply in_seq in Hb.
    apply (f_equal Z.of_N) in E. rewrite !N2Z.inj_mod, !N2Z.inj_mul in E by lia.
    assert (Hd : (Z.of_N rc | (Z.of_nat a - Z.of_nat b) * (Z.of_nat a + Z.of_nat b))%Z).
    { apply Z.mod_divide; [lia|].
      replace ((Z.of_nat a - Z.of_nat b) * (Z.of_nat a + Z.of_nat b))%Z with
        (Z.of_nat a * Z.of_nat a - Z.of_nat b * Z.of_nat b)%Z by ring.
      rewrite !nat_N_Z in E.
      rewrite Zminus_mod, E, Z.sub_diag. apply Z.mod_0_l. lia. }
    apply prime_mult in Hd; auto. destruct Hd as [[c Hc]|[c Hc]].
    + assert (c = 0)%Z by nia. subst c. lia.
    + assert (c = 0 \/ c >= 1)%Z by nia. destruct H; [subst c; lia|nia].
  - intros n Hn. apply in_seq in Hn. lia.
Qed.

Lemma cover_25 : cover 25 [0;1;2;3;4;6;7;8;9;11;12]%nat.
Proof.
  split.
  - vm_compute. repeat constructor; simpl; intuition discriminate.
  - intros n Hn. simpl in Hn. repeat (destruct Hn as [<-|Hn]; [lia|]). contradiction.
Qed.

Section Probe.
  Variables K V : Type.
  Variable hash : K -> N.
  Variable keq : K -> K -> bool.
  Hypothesis Hequiv : equivalence K keq.
  Hypothesis Hhash : hash_respects K keq hash.
  Notation row := (row K V).
  Notation table := (table K V).

  Definition is_empty (r : row) : bool := match r with Empty => true | _ => false end.

  Lemma occupied_count : forall rs : list row,
    (length (filter (fun r => negb (is_empty r)) rs) = nactive K V rs + ndeleted K V rs)%nat.
  Proof.
    induction rs as [|[] rs]; simpl; auto; rewrite ?IHrs; unfold nactive, ndeleted; simpl; lia.
  Qed.

  (** Pigeonhole: the positions of non-empty rows. *)
  Definition occupied_positions (rs : list row) : list nat :=
    filter (fun i => match nth_error rs i with Some r => negb (is_empty r) | None => false end)
           (seq 0 (length rs)).

  Lemma occupied_positions_length : forall rs : list row,
    length (occupied_positions rs) = length (filter (fun r => negb (is_empty r)) rs).
  Proof.
    unfold occupied_positions. intros rs.
    assert (G : forall (pre suf : list row),
      length (filter (fun i => match nth_error (pre ++ suf) i with Some r => negb (is_empty r) | None => false end)
           (seq (length pre) (length suf))) = length (filter (fun r => negb (is_empty r)) suf)).
    { intros pre suf. revert pre. induction suf; intros; simpl; auto.
      rewrite nth_error_app2 by lia. rewrite Nat.sub_diag. simpl.
      specialize (IHsuf (pre ++ [a])). rewrite <- app_assoc in IHsuf. simpl in IHsuf.
      rewrite app_length, Nat.add_comm in IHsuf. simpl in IHsuf.
      destruct (negb (is_empty a)); simpl; rewrite IHsuf; auto. }
    apply (G []).
  Qed.

  Lemma exists_empty_probe : forall rs rc h ns,
    0 < rc -> h < rc ->
    length rs = N.to_nat rc -> cover rc ns ->
    (nactive K V rs + ndeleted K V rs < length ns)%nat ->
    exists n, In n ns /\ row_at K V rs (fst (probe rc h n)) = Some Empty.
  Proof.
    intros rs rc h ns Hrc Hh Hlen [Hnd Hb] Hlt.
    destruct (Exists_dec (fun n => row_at K V rs (fst (probe rc h n)) = Some Empty) ns) as [He|Hne].
    { intros n. destruct (row_at K V rs (fst (probe rc h n))) as [[]|]; auto; right; discriminate. }
    { apply Exists_exists in He. destruct He as (n & H1 & H2). eauto. }
    exfalso.
    set (f := fun n => N.to_nat (fst (probe rc h n))).
    assert (Hnd' : NoDup (map f ns)).
    { apply NoDup_map_inv with (f := fun i => (N.of_nat i + (rc - h)) mod rc).
      rewrite map_map. erewrite map_ext_in; [exact Hnd|].
      intros n Hn. unfold f. cbv beta. rewrite N2Nat.id, probe_closed by (auto; specialize (Hb _ Hn); lia).
      rewrite N.add_mod_idemp_l by lia.
      replace (h + N.of_nat n * N.of_nat n + (rc - h)) with (N.of_nat n * N.of_nat n + 1 * rc) by lia.
      rewrite N.mod_add; auto; lia. }
    assert (Hincl : incl (map f ns) (occupied_positions rs)).
    { intros i Hi. apply in_map_iff in Hi. destruct Hi as (n & Hfn & Hn). unfold f in Hfn.
      assert (Hlt2 : fst (probe rc h n) < rc).
      { rewrite probe_closed by (auto; specialize (Hb _ Hn); lia). apply N.mod_lt. lia. }
      unfold occupied_positions. apply filter_In. split; [apply in_seq; lia|].
      destruct (nth_error rs i) as [r|] eqn:E.
      - destruct r; auto. exfalso. apply Hne. apply Exists_exists. exists n. split; auto.
        unfold row_at. rewrite Hfn. auto.
      - apply nth_error_None in E. lia. }
    assert (H := NoDup_incl_length Hnd' Hincl).
    rewrite map_length, occupied_positions_length, occupied_count in H. lia.
  Qed.

  Lemma find_loop_ok : forall m n fuel rs rc k fd,
    (forall j, (j <= n + m)%nat -> row_at K V rs (fst (probe rc (hash k mod rc) j)) <> None) ->
    row_at K V rs (fst (probe rc (hash k mod rc) (n + m)%nat)) = Some Empty ->
    (m < fuel)%nat ->
    exists r, find_loop K V keq fuel rs rc k fd (probe rc (hash k mod rc) n) = Ok r.
  Proof.
    induction m; intros n fuel rs rc k fd Hin He Hf.
    - destruct fuel; [lia|]. simpl. rewrite Nat.add_0_r in He. rewrite He. destruct fd; eauto.
    - destruct fuel; [lia|]. simpl.
      destruct (row_at K V rs (fst (probe rc (hash k mod rc) n))) as [r|] eqn:E.
      + assert (Hrec : forall fd', exists r, find_loop K V keq fuel rs rc k fd' (probe rc (hash k mod rc) (S n)) = Ok r).
        { intros fd'. apply IHm; [intros; apply Hin; lia| |lia].
          replace (S n + m)%nat with (n + S m)%nat by lia. auto. }
        destruct r; eauto.
        * destruct fd; eauto.
        * destruct (keq k0 k); eauto. 
      + exfalso. apply (Hin n); [lia|auto].
  Qed.

  Lemma find_ok : forall rs rc k ns,
    0 < rc -> length rs = N.to_nat rc -> cover rc ns ->
    (nactive K V rs + ndeleted K V rs < length ns)%nat ->
    exists r, find K V hash keq rs rc k = Ok r.
  Proof.
    intros rs rc k ns Hrc Hlen Hc Hlt. unfold find.
    destruct (rc =? 0) eqn:E0; [apply N.eqb_eq in E0; lia|].
    assert (Hh : hash k mod rc < rc) by (apply N.mod_lt; lia).
    destruct (exists_empty_probe rs rc (hash k mod rc) ns Hrc Hh Hlen Hc Hlt) as (n & Hn & He).
    destruct Hc as [_ Hb]. specialize (Hb _ Hn).
    apply (find_loop_ok n 0%nat); auto; [|lia].
    intros j Hj. unfold row_at. apply nth_error_Some.
    rewrite probe_closed by (auto; lia). assert (A := N.mod_lt (hash k mod rc + N.of_nat j * N.of_nat j) rc ltac:(lia)).
    lia.
  Qed.

  (** ** Tables in which probing is safe: every size but 25 under the load
      bound, and size 25 with at most 10 occupied rows. *)
  Definition safe_bound (rc ma : N) : N := if rc =? 25 then 11 else ma + 1.

  Lemma size_find_ok : forall rs rc ma k,
    In (rc, ma) hash_table_sizes -> length rs = N.to_nat rc ->
    N.of_nat (nactive K V rs) + N.of_nat (ndeleted K V rs) < safe_bound rc ma ->
    exists r, find K V hash keq rs rc k = Ok r.
  Proof.
    intros rs rc ma k Hin Hlen Hlt. unfold safe_bound in Hlt.
    destruct (sizes_positive _ Hin) as [Hp _]. cbn [fst] in Hp.
    destruct (rc =? 25) eqn:E.
    - apply N.eqb_eq in E. subst rc. eapply find_ok; eauto; [apply cover_25|]. simpl. lia.
    - apply N.eqb_neq in E. assert (Hh := sizes_half _ Hin). cbn [fst snd] in Hh.
      eapply find_ok; eauto.
      + apply prime_cover; [apply (sizes_prime _ Hin); auto|exists ma; auto].
      + rewrite seq_length. assert (rc / 2 = ma) by (symmetry; apply (N.div_unique rc 2 ma 1); lia). lia.
  Qed.

  Definition probe_safe (t : table) : Prop :=
    activeCount t + deletedCount t < safe_bound (rowCount t) (maxActive t).

  Definition max_row_count : N := 1675364863.

  Lemma next_size_fatal : forall rc, next_hash_table_size rc = Fatal -> max_row_count <= rc.
  Proof.
    intros rc H. unfold next_hash_table_size in H.
    destruct (next_size_in hash_table_sizes rc) eqn:E; [discriminate|].
    assert (G : forall l, next_size_in l rc = None -> forall s, In s l -> fst s <= rc).
    { induction l; simpl; intros; [contradiction|]. destruct (rc <? fst a) eqn:E1; [discriminate|].
      apply N.ltb_ge in E1. destruct H1; [subst; auto|auto]. }
    apply (G _ E (1675364863, 837682431)).
    unfold hash_table_sizes. simpl. tauto.
  Qed.

  (** An insertion into an allocated safe table returns, or is the documented
      fatal error of a table of the maximum size. *)
  Lemma insert_depth_found : forall d t rs k v p,
    tinv0 K V hash keq t rs -> (exists r, find K V hash keq rs (rowCount t) k = Ok r) ->
    (forall t2 rs2, tinv0 K V hash keq t2 rs2 -> rowCount t2 = rowCount t -> maxActive t2 = maxActive t ->
        activeCount t2 = activeCount t + 1 -> deletedCount t2 <= deletedCount t ->
        (exists t', resize_and_rehash K V (insert_depth K V hash keq d) t2 = Ok t') \/
        (resize_and_rehash K V (insert_depth K V hash keq d) t2 = Fatal /\ max_row_count <= rowCount t)) ->
    (exists r, insert_depth K V hash keq (S d) t k v p = Ok r) \/
    (insert_depth K V hash keq (S d) t k v p = Fatal /\ max_row_count <= rowCount t).
  Proof.
    intros d t rs k v p Hinv ([x st] & Hfind) Hres.
    assert (Hinv0 := Hinv). destruct Hinv as [Hrows Hri Hsize Hact Hdel].
    destruct (find_spec _ _ _ _ Hhash _ _ _ _ _ Hri Hfind) as (Hreach & Hst & Hno).
    cbn [insert_depth]. rewrite Hrows. cbn [obind]. rewrite Hrows, Hfind. cbn [obind].
    assert (Hcase : forall r0, row_at K V rs x = Some r0 -> is_active K V r0 = false -> st <> FActive ->
       (st = FDeleted -> r0 = Deleted) -> (st = FEmpty -> r0 = Empty) ->
       let t2 := mkTable (Some (write_row K V rs x (Active k v))) (activeCount t + 1)
             (match st with FDeleted => deletedCount t - 1 | _ => deletedCount t end) (rowCount t) (maxActive t) in
       (exists t', resize_and_rehash K V (insert_depth K V hash keq d) t2 = Ok t') \/
        (resize_and_rehash K V (insert_depth K V hash keq d) t2 = Fatal /\ max_row_count <= rowCount t)).
    { intros r0 Hr0 Ha Hs Hd1 Hd2 t2. apply (Hres t2 (write_row K V rs x (Active k v))); auto.
      - destruct (row_at_split _ _ _ _ _ (Active k v) Hr0) as (l1 & l2 & E1 & E2).
        constructor; simpl; auto.
        + eapply rows_inv_insert; eauto.
        + rewrite E2. rewrite E1 in Hact. rewrite Hact, !nactive_app, !nactive_cons, Ha. simpl. lia.
        + rewrite E2. rewrite E1 in Hdel. rewrite Hdel, !ndeleted_app, !ndeleted_cons.
          destruct st; [rewrite (Hd2 eq_refl)|rewrite (Hd1 eq_refl)|congruence]; simpl; lia.
      - simpl. destruct st; lia. }
    destruct st.
    - rewrite Hst. specialize (Hcase _ Hst eq_refl ltac:(discriminate) ltac:(discriminate) ltac:(auto)).
      cbv zeta in Hcase. cbn [row_update].
      destruct p; eauto; destruct Hcase as [(t' & ->)|(-> & Hf)]; cbn [obind]; eauto.
    - rewrite Hst. specialize (Hcase _ Hst eq_refl ltac:(discriminate) ltac:(auto) ltac:(discriminate)).
      cbv zeta in Hcase. cbn [row_update].
      destruct p; eauto; destruct Hcase as [(t' & ->)|(-> & Hf)]; cbn [obind]; eauto.
    - destruct Hst as (k' & v' & Hst & Hk). rewrite Hst. destruct p; eauto.
  Qed.

  Lemma insert_depth_ok : forall d t rs k v p,
    tinv0 K V hash keq t rs -> probe_safe t ->
    (forall t2 rs2, tinv0 K V hash keq t2 rs2 -> rowCount t2 = rowCount t -> maxActive t2 = maxActive t ->
        activeCount t2 = activeCount t + 1 -> deletedCount t2 <= deletedCount t ->
        (exists t', resize_and_rehash K V (insert_depth K V hash keq d) t2 = Ok t') \/
        (resize_and_rehash K V (insert_depth K V hash keq d) t2 = Fatal /\ max_row_count <= rowCount t)) ->
    (exists r, insert_depth K V hash keq (S d) t k v p = Ok r) \/
    (insert_depth K V hash keq (S d) t k v p = Fatal /\ max_row_count <= rowCount t).
  Proof.
    intros d t rs k v p Hinv Hsafe Hres. apply (insert_depth_found d t rs); auto.
    destruct Hinv as [Hrows Hri Hsize Hact Hdel].
    unfold probe_safe in Hsafe. rewrite Hact, Hdel in Hsafe.
    apply (size_find_ok rs (rowCount t) (maxActive t) k Hsize (proj1 Hri) Hsafe).
  Qed.

  Lemma reinsert_ok : forall d old t rs,
    tinv0 K V hash keq t rs ->
    deletedCount t = 0 ->
    activeCount t + N.of_nat (nactive K V old) < maxActive t ->
    activeCount t + N.of_nat (nactive K V old) <= 11 \/ rowCount t <> 25 ->
    amap_nodup K V keq (active_rows old ++ active_rows rs) ->
    exists t', reinsert K V (insert_depth K V hash keq (S d)) old t = Ok t'.
  Proof.
    induction old as [|r old]; intros t rs Hinv Hdc Hroom Hroom2 Hnd.
    - simpl. eauto.
    - destruct r as [| |k v]; try (simpl; eapply IHold; eauto; fail).
      rewrite nactive_cons in Hroom, Hroom2. cbn [is_active] in Hroom, Hroom2.
      cbn [active_rows app] in Hnd. inversion Hnd as [|e l Hfa Hnd']; subst.
      destruct (insert_depth_ok d t rs k v InsertAlways Hinv) as [([t1 b] & Hins)|(Hins & _)].
      + unfold probe_safe, safe_bound. destruct (rowCount t =? 25) eqn:E.
        * apply N.eqb_eq in E. destruct Hroom2; [lia|contradiction].
        * lia.
      + intros t2 rs2 Hi2 Hr2 Hm2 Ha2 Hd2. left. rewrite resize_noop; eauto.
        unfold load_ok. lia.
      + cbn [reinsert]. rewrite Hins. cbn [obind fst].
        destruct (insert_depth_spec _ _ _ _ Hequiv Hhash _ _ _ _ _ _ _ _ Hinv Hins) as
          [(k' & v' & Hget & _)|(Hget & [(Hp & _)|(_ & Hb & t2 & rs2 & Hinv2 & Hrc & Hma & Hac & Hdc2 & Hperm & Hres)])].
        * exfalso. apply find_some in Hget. destruct Hget as [Hin Hk].
          rewrite Forall_forall in Hfa. specialize (Hfa (k', v') (in_or_app _ _ _ (or_intror Hin))).
          simpl in *. rewrite (keq_sym _ _ Hequiv) in Hfa. congruence.
        * discriminate.
        * assert (Hl : load_ok K V t2).
          { unfold load_ok. rewrite Hma, Hac. destruct Hdc2; lia. }
          rewrite resize_noop in Hres by auto. inversion Hres; subst t1.
          apply (IHold t2 rs2); auto.
          -- destruct Hdc2; lia.
          -- rewrite Hac, Hma. lia.
          -- rewrite Hrc, Hac. destruct Hroom2; [left; lia|right; auto].
          -- apply (amap_nodup_perm _ _ _ Hequiv ((k, v) :: active_rows old ++ active_rows rs)); auto.
             eapply Permutation_trans; [apply Permutation_middle|].
             apply Permutation_app_head. apply Permutation_sym. exact Hperm.
      + exfalso. revert Hins. cbn [insert_depth].
        destruct Hinv as [Hrows Hri Hsize Hact Hdel]. rewrite Hrows. cbn [obind]. rewrite Hrows.
        destruct (find K V hash keq rs (rowCount t) k) as [[x st]| | |] eqn:Hf; cbn [obind]; try discriminate.
        * destruct (row_at K V rs x); [|discriminate].
          assert (forall ac dc, ac + dc < maxActive t ->
             resize_and_rehash K V (insert_depth K V hash keq d)
              (mkTable (Some (write_row K V rs x (row_update K V r k v))) ac dc (rowCount t) (maxActive t)) <> Fatal).
          { intros. rewrite resize_noop; [discriminate|]. unfold load_ok. simpl. auto. }
          destruct st; try discriminate.
          -- specialize (H (activeCount t + 1) (deletedCount t) ltac:(lia)).
             destruct (resize_and_rehash _ _ _ _); cbn [obind]; congruence.
          -- specialize (H (activeCount t + 1) (deletedCount t - 1) ltac:(lia)).
             destruct (resize_and_rehash _ _ _ _); cbn [obind]; congruence.
        * exfalso. eapply find_not_fatal; eauto.
  Qed.

  Lemma resize_ok : forall d t rs,
    tinv0 K V hash keq t rs ->
    activeCount t + deletedCount t <= maxActive t ->
    (exists t', resize_and_rehash K V (insert_depth K V hash keq (S d)) t = Ok t') \/
    (resize_and_rehash K V (insert_depth K V hash keq (S d)) t = Fatal /\ max_row_count <= rowCount t).
  Proof.
    intros d t rs Hinv Hle.
    destruct (N.lt_ge_cases (activeCount t + deletedCount t) (maxActive t)) as [Hlt|Hge].
    - left. rewrite resize_noop; eauto.
    - unfold resize_and_rehash.
      assert (E : activeCount t + deletedCount t <? maxActive t = false) by (apply N.ltb_ge; auto).
      rewrite E. destruct Hinv as [Hrows Hri Hsize Hact Hdel]. rewrite Hrows.
      destruct (sizes_positive _ Hsize) as [Hp1 Hp2]. cbn [fst snd] in Hp1, Hp2.
      assert (Hgo : forall rc ma, In (rc, ma) hash_table_sizes -> activeCount t < ma ->
                 (activeCount t <= 11 \/ rc <> 25) ->
                 exists t', reinsert K V (insert_depth K V hash keq (S d)) rs
                   (mkTable (Some (repeat Empty (N.to_nat rc))) 0 0 rc ma) = Ok t').
      { intros rc ma Hin Hroom H25.
        apply (reinsert_ok d rs _ (repeat Empty (N.to_nat rc))).
        - constructor; simpl; auto.
          + apply rows_inv_fresh.
          + rewrite nactive_repeat. auto.
          + rewrite ndeleted_repeat. auto.
        - reflexivity.
        - cbn [activeCount maxActive]. rewrite <- Hact. lia.
        - cbn [activeCount rowCount]. rewrite <- Hact. destruct H25; [left; lia|auto].
        - rewrite active_rows_repeat, app_nil_r. eapply enumerate_nodup; eauto. }
      destruct ((rowCount t =? 0) || (deletedCount t <? activeCount t)) eqn:Eg.
      + destruct (next_hash_table_size (rowCount t)) as [[rc ma]| | |] eqn:En.
        * cbn [obind]. left. apply Hgo.
          -- unfold next_hash_table_size in En.
             destruct (next_size_in hash_table_sizes (rowCount t)) as [s|] eqn:En2; [|discriminate].
             inversion En; subst. apply (next_size_facts _ _ En2).
          -- unfold next_hash_table_size in En.
             destruct (next_size_in hash_table_sizes (rowCount t)) as [s|] eqn:En2; [|discriminate].
             inversion En; subst. destruct (next_size_facts _ _ En2) as [Hi Hl].
             assert (snd (rowCount t, maxActive t) < snd (rc, ma)) by (apply sizes_monotone; auto).
             cbn [snd] in *. lia.
          -- destruct (N.eq_dec rc 25) as [->|]; auto. left.
             unfold next_hash_table_size in En.
             destruct (next_size_in hash_table_sizes (rowCount t)) as [s|] eqn:En2; [|discriminate].
             inversion En; subst. destruct (next_size_facts _ _ En2) as [Hi Hl].
             assert (snd (rowCount t, maxActive t) < snd (25, ma)) by (apply sizes_monotone; auto).
             assert (Hh := sizes_half _ Hi). cbn [fst snd] in *. lia.
        * unfold next_hash_table_size in En. destruct (next_size_in _ _); discriminate.
        * right. split; auto. apply next_size_fatal; auto.
        * unfold next_hash_table_size in En. destruct (next_size_in _ _); discriminate.
      + cbn [obind]. left. apply orb_false_iff in Eg. destruct Eg as [_ Eg]. apply N.ltb_ge in Eg.
        apply Hgo; auto; [lia|].
        destruct (N.eq_dec (rowCount t) 25) as [E25|]; auto. left.
        assert (Hh := sizes_half _ Hsize). cbn [fst snd] in *. lia.
  Qed.

  Lemma insert_ok : forall t rs k v p,
    tinv0 K V hash keq t rs -> load_ok K V t -> probe_safe t ->
    (exists r, insert K V hash keq t k v p = Ok r) \/
    (insert K V hash keq t k v p = Fatal /\ max_row_count <= rowCount t).
  Proof.
    intros t rs k v p Hinv Hload Hsafe. unfold insert.
    eapply insert_depth_ok; eauto.
    intros t2 rs2 Hinv2 Hr Hm Ha Hd. rewrite <- Hr.
    eapply resize_ok; eauto. unfold load_ok in Hload. lia.
  Qed.

  Lemma step_ok : forall t o,
    tinv K V hash keq t -> ~ (rowCount t = 25 /\ activeCount t + deletedCount t = 11) ->
    (exists r, step K V hash keq t o = Ok r) \/
    (step K V hash keq t o = Fatal /\ max_row_count <= rowCount t).
  Proof.
    intros t o Hinv H25. inversion Hinv as [E|rs Hi Hl].
    - subst t.
      assert (Hins : forall k v p, exists r, insert K V hash keq table_init k v p = Ok r).
      { intros. unfold insert. rewrite insert_table_init.
        destruct (insert_ok (mkTable (Some (repeat Empty (N.to_nat 11))) 0 0 11 5) (repeat Empty (N.to_nat 11)) k v p) as [H|[H1 H2]].
        - apply first_table_inv.
        - unfold load_ok. simpl. lia.
        - unfold probe_safe, safe_bound. simpl. lia.
        - exact H.
        - unfold max_row_count in H2. simpl in H2. lia. }
      left. destruct o; simpl; eauto;
        match goal with |- context [insert K V hash keq table_init ?a ?b ?c] =>
          destruct (Hins a b c) as (r & ->) end; simpl; eauto.
    - assert (Hsafe : probe_safe t).
      { unfold probe_safe, safe_bound, load_ok in *. destruct (rowCount t =? 25) eqn:E; [|lia].
        apply N.eqb_eq in E. assert (Hh := sizes_half _ (ti_size _ _ _ _ _ _ Hi)). cbn [fst snd] in Hh.
        assert (activeCount t + deletedCount t <> 11) by tauto. lia. }
      assert (Hfind : forall k, exists r, find K V hash keq rs (rowCount t) k = Ok r).
      { intros k. destruct Hi as [Hrows Hri Hsize Hact Hdel]. unfold probe_safe in Hsafe.
        rewrite Hact, Hdel in Hsafe. eapply size_find_ok; eauto. apply Hri. }
      assert (Hins := fun k v p => insert_ok t rs k v p Hi Hl Hsafe).
      destruct o; simpl; eauto;
        try (match goal with |- context [insert K V hash keq t ?a ?b ?c] =>
          destruct (Hins a b c) as [(r & ->)|(-> & H)] end; simpl; eauto; fail).
      + left. unfold remove. destruct (0 <? activeCount t); [|simpl; eauto].
        rewrite (ti_rows _ _ _ _ _ _ Hi). destruct (Hfind k) as ([x st] & ->). simpl. destruct st; simpl; eauto.
      + left. unfold lookup. destruct (0 <? activeCount t); [|simpl; eauto].
        rewrite (ti_rows _ _ _ _ _ _ Hi). destruct (Hfind k) as ([x st] & Hf). rewrite Hf. simpl.
        destruct (find_spec _ _ _ _ Hhash _ _ _ _ _ (ti_inv _ _ _ _ _ _ Hi) Hf) as (_ & Hst & _).
        destruct st; simpl; eauto. destruct Hst as (k' & v' & -> & _). simpl. eauto.
  Qed.

  (** Every operation returns, is the fatal error of a table of the maximum
      size, or is an out-of-bounds probe of a table of 25 rows with 11 in use. *)
  Lemma step_total : forall t o,
    tinv K V hash keq t ->
    (exists r, step K V hash keq t o = Ok r) \/
    (step K V hash keq t o = Fatal /\ max_row_count <= rowCount t) \/
    (step K V hash keq t o = UB /\ rowCount t = 25 /\ activeCount t + deletedCount t = 11).
  Proof.
    intros t o Hinv.
    destruct (N.eq_dec (rowCount t) 25) as [E25|]; [|destruct (step_ok t o Hinv); tauto].
    destruct (N.eq_dec (activeCount t + deletedCount t) 11) as [E11|]; [|destruct (step_ok t o Hinv); tauto].
    inversion Hinv as [E|rs Hi Hl]; [subst t; discriminate|].
    assert (Hfind : forall k, (exists r, find K V hash keq rs (rowCount t) k = Ok r) \/ find K V hash keq rs (rowCount t) k = UB).
    { intros k. destruct (find K V hash keq rs (rowCount t) k) eqn:E; eauto; exfalso.
      - eapply find_not_fatal; eauto.
      - eapply find_no_nofuel; eauto. apply (ti_inv _ _ _ _ _ _ Hi). }
    assert (Hins : forall k v p, (exists r, insert K V hash keq t k v p = Ok r) \/
                 (insert K V hash keq t k v p = Fatal /\ max_row_count <= rowCount t) \/
                 insert K V hash keq t k v p = UB).
    { intros k v p. destruct (Hfind k) as [Hf|Hf].
      - unfold insert. destruct (insert_depth_found 1 t rs k v p Hi Hf) as [|[]]; auto.
        intros t2 rs2 Hinv2 Hr Hm Ha Hd. rewrite <- Hr.
        eapply resize_ok; eauto. unfold load_ok in Hl. lia.
      - right. right. unfold insert. cbn [insert_depth]. rewrite (ti_rows _ _ _ _ _ _ Hi). cbn [obind].
        rewrite (ti_rows _ _ _ _ _ _ Hi), Hf. auto. }
    destruct o; simpl; eauto;
        try (match goal with |- context [insert K V hash keq t ?a ?b ?c] =>
          destruct (Hins a b c) as [(r & ->)|[(-> & H)| ->]] end; simpl; eauto; fail).
      - unfold remove. destruct (0 <? activeCount t); [|simpl; eauto].
        rewrite (ti_rows _ _ _ _ _ _ Hi). destruct (Hfind k) as [([x st] & ->)| ->]; simpl; [|eauto]. destruct st; simpl; eauto.
      - unfold lookup. destruct (0 <? activeCount t); [|simpl; eauto].
        rewrite (ti_rows _ _ _ _ _ _ Hi). destruct (Hfind k) as [([x st] & Hf)|Hf]; rewrite Hf; simpl; [|eauto].
        destruct (find_spec _ _ _ _ Hhash _ _ _ _ _ (ti_inv _ _ _ _ _ _ Hi) Hf) as (_ & Hst & _).
        destruct st; simpl; eauto. destruct Hst as (k' & v' & -> & _). simpl. eauto.
  Qed.

  (** ** How an operation changes the load and the size *)
  Lemma resize_load : forall d t rs t',
    tinv0 K V hash keq t rs -> activeCount t + deletedCount t <= maxActive t ->
    resize_and_rehash K V (insert_depth K V hash keq (S d)) t = Ok t' ->
    activeCount t' + deletedCount t' <= activeCount t + deletedCount t /\ rowCount t <= rowCount t'.
  Proof.
    intros d t rs t' Hinv Hle H.
    destruct (N.lt_ge_cases (activeCount t + deletedCount t) (maxActive t)) as [Hlt|Hge].
    - rewrite (resize_noop _ _ _ _ Hlt) in H. inversion H; subst. lia.
    - unfold resize_and_rehash in H.
      assert (E : activeCount t + deletedCount t <? maxActive t = false) by (apply N.ltb_ge; auto).
      rewrite E in H. apply obind_ok in H. destruct H as ([rc ma] & Hsz & H).
      destruct Hinv as [Hrows Hri Hsize Hact Hdel]. rewrite Hrows in H.
      destruct (sizes_positive _ Hsize) as [Hp1 Hp2]. cbn [fst snd] in Hp1, Hp2.
      assert (Hnew : In (rc, ma) hash_table_sizes /\ activeCount t < ma /\ rowCount t <= rc).
      { destruct ((rowCount t =? 0) || (deletedCount t <? activeCount t)) eqn:Eg.
        - unfold next_hash_table_size in Hsz.
          destruct (next_size_in hash_table_sizes (rowCount t)) as [s|] eqn:En; [|discriminate].
          inversion Hsz; subst. destruct (next_size_facts _ _ En) as [Hi Hlt]. split; auto.
          assert (snd (rowCount t, maxActive t) < snd (rc, ma)) by (apply sizes_monotone; auto).
          cbn [fst snd] in *. lia.
        - inversion Hsz; subst. apply orb_false_iff in Eg. destruct Eg as [_ Eg].
          apply N.ltb_ge in Eg. repeat split; auto; lia. }
      destruct Hnew as (Hin & Hroom & Hrc).
      apply (reinsert_spec _ _ _ _ Hequiv Hhash d rs _ (repeat Empty (N.to_nat rc))) in H.
      + destruct H as (rs' & A1 & A2 & A3 & A4 & A5 & A6). cbn [rowCount] in A4.
        rewrite active_rows_repeat, app_nil_r in A6. apply Permutation_length in A6.
        rewrite !active_rows_length in A6.
        rewrite A2, (ti_active _ _ _ _ _ _ A1), Hact, A4. lia.
      + constructor; simpl; auto.
        * apply rows_inv_fresh.
        * rewrite nactive_repeat. auto.
        * rewrite ndeleted_repeat. auto.
      + reflexivity.
      + cbn [activeCount maxActive]. rewrite <- Hact. lia.
      + rewrite active_rows_repeat, app_nil_r. eapply enumerate_nodup; eauto.
  Qed.

  Lemma insert_load : forall t k v p t' b,
    tinv K V hash keq t -> insert K V hash keq t k v p = Ok (t', b) ->
    activeCount t' + deletedCount t' <= activeCount t + deletedCount t + 1 /\ rowCount t <= rowCount t'.
  Proof.
    assert (Halloc : forall t rs k v p t' b, tinv0 K V hash keq t rs -> load_ok K V t ->
       insert K V hash keq t k v p = Ok (t', b) ->
       activeCount t' + deletedCount t' <= activeCount t + deletedCount t + 1 /\ rowCount t <= rowCount t').
    { intros t rs k v p t' b Hi Hl H. unfold insert in H.
      destruct (insert_depth_spec _ _ _ _ Hequiv Hhash _ _ _ _ _ _ _ _ Hi H) as
          [(k' & v' & Hget & [(_ & -> & _)|(_ & _ & rs' & _ & A & B & C & _)])
          |(Hget & [(_ & -> & _)|(_ & _ & t2 & rs2 & Hinv2 & Hrc & Hma & Hac & Hdc2 & Hperm & Hres)])]; try lia.
      apply (resize_load 0 t2 rs2) in Hres; auto; unfold load_ok in Hl; destruct Hdc2; lia. }
    intros t k v p t' b Hinv H. inversion Hinv as [E|rs Hi Hl]; [|eauto].
    subst t. unfold insert in H. rewrite insert_table_init in H.
    destruct (Halloc _ _ _ _ _ _ _ (first_table_inv K V hash keq) ltac:(unfold load_ok; simpl; lia) H) as [A B].
    simpl in *. lia.
  Qed.

  (** ** Histories *)
  Definition is_insertion (o : op K V) : bool :=
    match o with OpSet _ _ | OpAdd _ _ | OpReplace _ _ => true | _ => false end.
  Definition insertions (os : list (op K V)) : N := N.of_nat (length (filter is_insertion os)).

  Lemma step_load : forall t o t' r,
    tinv K V hash keq t -> step K V hash keq t o = Ok (t', r) ->
    activeCount t' + deletedCount t' <= activeCount t + deletedCount t + (if is_insertion o then 1 else 0)
    /\ rowCount t <= rowCount t'.
  Proof.
    intros t o t' r Hinv H. destruct o; simpl in H;
      try (apply obind_ok in H; destruct H as ([t1 b] & H1 & H2); inversion H2; subst;
           eapply insert_load in H1; eauto; fail).
    - apply obind_ok in H. destruct H as (t1 & H1 & H2). inversion H2; subst. unfold remove in H1.
      destruct (0 <? activeCount t) eqn:E; [|inversion H1; subst; simpl; lia]. apply N.ltb_lt in E.
      destruct (rows t); [|discriminate]. apply obind_ok in H1. destruct H1 as ([x st] & _ & H1).
      destruct st; inversion H1; subst; simpl; lia.
    - inversion H; subst. simpl. lia.
    - apply obind_ok in H. destruct H as (t1 & H1 & H2). inversion H2; subst. simpl. lia.
    - inversion H; subst. simpl. lia.
  Qed.

  (** A step from a table of at most 25 rows with at most 10 in use stays
      within 25 rows. *)
  Lemma step_small : forall t o t' r,
    tinv K V hash keq t -> rowCount t <= 25 -> activeCount t + deletedCount t <= 10 ->
    step K V hash keq t o = Ok (t', r) -> rowCount t' <= 25.
  Proof.
    assert (Hins : forall t rs k v p t' b, tinv0 K V hash keq t rs -> load_ok K V t ->
       rowCount t <= 25 -> activeCount t + deletedCount t <= 10 ->
       insert K V hash keq t k v p = Ok (t', b) -> rowCount t' <= 25).
    { intros t rs k v p t' b Hi Hl Hrc Hld H. unfold insert in H.
      destruct (insert_depth_spec _ _ _ _ Hequiv Hhash _ _ _ _ _ _ _ _ Hi H) as
          [(k' & v' & Hget & [(_ & -> & _)|(_ & _ & rs' & _ & A & B & C & _)])
          |(Hget & [(_ & -> & _)|(_ & _ & t2 & rs2 & Hinv2 & Hrc2 & Hma & Hac & Hdc2 & Hperm & Hres)])]; try lia.
      destruct (N.lt_ge_cases (activeCount t2 + deletedCount t2) (maxActive t2)) as [Hlt|Hge].
      { rewrite (resize_noop _ _ _ _ Hlt) in Hres. inversion Hres; subst. lia. }
      assert (Hsz := ti_size _ _ _ _ _ _ Hinv2).
      assert (Hh := sizes_half _ Hsz). cbn [fst snd] in Hh.
      unfold resize_and_rehash in Hres.
      assert (E : activeCount t2 + deletedCount t2 <? maxActive t2 = false) by (apply N.ltb_ge; auto).
      rewrite E in Hres. apply obind_ok in Hres. destruct Hres as ([rc ma] & Hs & Hres).
      rewrite (ti_rows _ _ _ _ _ _ Hinv2) in Hres.
      assert (Hnew : In (rc, ma) hash_table_sizes /\ activeCount t2 < ma /\ rc <= 25).
      { assert (Hsmall : rowCount t2 = 11 \/ rowCount t2 = 17).
        { assert (G : In (rowCount t2) (map fst hash_table_sizes)) by (apply (in_map fst) in Hsz; auto).
          clear - G Hrc Hrc2 Hge Hld Hac Hdc2 Hh. unfold hash_table_sizes in G. simpl in G.
          repeat (destruct G as [G|G]; [try (left; congruence); try (right; congruence); exfalso; destruct Hdc2; lia|]).
          contradiction. }
        destruct ((rowCount t2 =? 0) || (deletedCount t2 <? activeCount t2)) eqn:Eg.
        - destruct Hsmall as [E1|E1]; rewrite E1 in Hs, Hh; inversion Hs; subst;
            (split; [unfold hash_table_sizes; simpl; tauto|]); unfold load_ok in Hl; destruct Hdc2; lia.
        - inversion Hs; subst. apply orb_false_iff in Eg. destruct Eg as [_ Eg].
          apply N.ltb_ge in Eg. split; auto. unfold load_ok in Hl. destruct Hdc2; lia. }
      destruct Hnew as (Hin & Hroom & Hr25).
      apply (reinsert_spec _ _ _ _ Hequiv Hhash 0 rs2 _ (repeat Empty (N.to_nat rc))) in Hres.
      + destruct Hres as (rs' & A1 & A2 & A3 & A4 & A5 & A6). cbn [rowCount] in A4. lia.
      + constructor; simpl; auto.
        * apply rows_inv_fresh.
        * rewrite nactive_repeat. auto.
        * rewrite ndeleted_repeat. auto.
      + reflexivity.
      + cbn [activeCount maxActive]. rewrite <- (ti_active _ _ _ _ _ _ Hinv2). lia.
      + rewrite active_rows_repeat, app_nil_r. eapply enumerate_nodup; eauto. apply (ti_inv _ _ _ _ _ _ Hinv2). }
    assert (Hins2 : forall t k v p t' b, tinv K V hash keq t ->
       rowCount t <= 25 -> activeCount t + deletedCount t <= 10 ->
       insert K V hash keq t k v p = Ok (t', b) -> rowCount t' <= 25).
    { intros t k v p t' b Hinv Hrc Hld H. inversion Hinv as [E|rs Hi Hl]; [|eauto].
      subst t. unfold insert in H. rewrite insert_table_init in H.
      apply (Hins _ _ _ _ _ _ _ (first_table_inv K V hash keq)) in H; auto; unfold load_ok; simpl; lia. }
    intros t o t' r Hinv Hrc Hld H. destruct o; simpl in H;
      try (apply obind_ok in H; destruct H as ([t1 b] & H1 & H2); inversion H2; subst;
           eapply Hins2 in H1; eauto; fail).
    - apply obind_ok in H. destruct H as (t1 & H1 & H2). inversion H2; subst. unfold remove in H1.
      destruct (0 <? activeCount t) eqn:E; [|inversion H1; subst; auto].
      destruct (rows t); [|discriminate]. apply obind_ok in H1. destruct H1 as ([x st] & _ & H1).
      destruct st; inversion H1; subst; auto.
    - inversion H; subst. auto.
    - apply obind_ok in H. destruct H as (t1 & H1 & H2). inversion H2; subst. auto.
    - inversion H; subst. auto.
  Qed.

  Lemma run_total : forall os t, tinv K V hash keq t -> run K V hash keq t os <> NoFuel.
  Proof.
    induction os; intros t Hinv H; simpl in H; [discriminate|].
    destruct (step_total t a Hinv) as [([t' r] & E)|[(E & _)|(E & _)]]; rewrite E in H; simpl in H; try discriminate.
    assert (Hr : refines K V hash keq t (enumerate t)) by (split; auto).
    destruct (step_refines _ _ _ _ Hequiv Hhash _ _ _ _ _ Hr E) as [[Hinv' _] _].
    specialize (IHos t' Hinv'). destruct (run K V hash keq t' os); simpl in H; try discriminate. congruence.
  Qed.

  (** Histories that never meet a 25-row table with 11 rows in use. *)
  Lemma run_safe : forall os t, tinv K V hash keq t ->
    (forall os1 os2 t' rs, os = os1 ++ os2 -> run K V hash keq t os1 = Ok (t', rs) ->
        ~ (rowCount t' = 25 /\ activeCount t' + deletedCount t' = 11)) ->
    (exists r, run K V hash keq t os = Ok r) \/
    (run K V hash keq t os = Fatal /\ exists os1 os2 t' rs, os = os1 ++ os2 /\
        run K V hash keq t os1 = Ok (t', rs) /\ max_row_count <= rowCount t').
  Proof.
    induction os; intros t Hinv Hno; simpl; [eauto|].
    destruct (step_ok t a Hinv) as [([t' r] & E)|(E & Hf)].
    { apply (Hno [] (a :: os) t []); auto. }
    - rewrite E. cbn [obind fst snd].
      assert (Hr : refines K V hash keq t (enumerate t)) by (split; auto).
      destruct (step_refines _ _ _ _ Hequiv Hhash _ _ _ _ _ Hr E) as [[Hinv' _] _].
      destruct (IHos t' Hinv') as [(r2 & E2)|(E2 & os1 & os2 & t2 & rs2 & Eos & E3 & Hf)].
      + intros os1 os2 t2 rs2 Eos Hr2. apply (Hno (a :: os1) os2 t2 (r :: rs2)); [subst; auto|].
        simpl. rewrite E. cbn [obind fst snd]. rewrite Hr2. auto.
      + rewrite E2. left. simpl. eauto.
      + right. rewrite E2. split; auto. exists (a :: os1), os2, t2, (r :: rs2). split; [subst; auto|].
        split; auto. simpl. rewrite E. cbn [obind fst snd]. rewrite E3. auto.
    - right. rewrite E. split; auto. exists [], (a :: os), t, []. auto.
  Qed.

  Lemma run_load : forall os t t' rs, tinv K V hash keq t -> run K V hash keq t os = Ok (t', rs) ->
    activeCount t' + deletedCount t' <= activeCount t + deletedCount t + insertions os /\ rowCount t <= rowCount t'
    /\ tinv K V hash keq t'.
  Proof.
    induction os; intros t t' rs Hinv H; simpl in H.
    - inversion H; subst. unfold insertions. simpl. split; [lia|split; [lia|auto]].
    - apply obind_ok in H. destruct H as ([t1 r1] & H1 & H2).
      apply obind_ok in H2. destruct H2 as ([t2 r2] & H2 & H3). inversion H3; subst. cbn [fst snd] in *.
      assert (Hr : refines K V hash keq t (enumerate t)) by (split; auto).
      destruct (step_refines _ _ _ _ Hequiv Hhash _ _ _ _ _ Hr H1) as [[Hinv' _] _].
      destruct (step_load _ _ _ _ Hinv H1) as [A B].
      destruct (IHos _ _ _ Hinv' H2) as (C & D & F).
      split; [|split; [lia|auto]].
      unfold insertions in *. simpl. destruct (is_insertion a); simpl; lia.
  Qed.

  (** With at most ten insertions every history returns. *)
  Lemma run_few : forall os, insertions os <= 10 -> exists r, run K V hash keq table_init os = Ok r.
  Proof.
    intros os Hn.
    assert (Hinv : tinv K V hash keq table_init) by (left; auto).
    assert (Hpre : forall os1 os2 t' rs, os = os1 ++ os2 -> run K V hash keq table_init os1 = Ok (t', rs) ->
       activeCount t' + deletedCount t' <= 10).
    { intros os1 os2 t' rs Eos Hr. destruct (run_load _ _ _ _ Hinv Hr) as [A _]. simpl in A.
      subst os. unfold insertions in *. rewrite filter_app, app_length in Hn. lia. }
    destruct (run_safe os table_init Hinv) as [H|(_ & os1 & os2 & t' & rs & Eos & Hr & Hf)]; auto.
    - intros os1 os2 t' rs Eos Hr [_ E]. specialize (Hpre _ _ _ _ Eos Hr). lia.
    - exfalso.
      (* the maximum size is not reached: rowCount <= 25 while the load is <= 10 *)
      assert (Hb : forall os t t' rs, tinv K V hash keq t -> rowCount t <= 25 ->
         run K V hash keq t os = Ok (t', rs) ->
         activeCount t + deletedCount t + insertions os <= 10 -> rowCount t' <= 25).
      { clear - Hequiv Hhash. induction os; intros t t' rs Hinv Hrc H Hn; simpl in H; [inversion H; subst; auto|].
        apply obind_ok in H. destruct H as ([t1 r1] & H1 & H2).
        apply obind_ok in H2. destruct H2 as ([t2 r2] & H2 & H3). inversion H3; subst. cbn [fst snd] in *.
        assert (Hr : refines K V hash keq t (enumerate t)) by (split; auto).
        destruct (step_refines _ _ _ _ Hequiv Hhash _ _ _ _ _ Hr H1) as [[Hinv' _] _].
        destruct (step_load _ _ _ _ Hinv H1) as [A B].
        apply (IHos t1 t' r2); auto.
        - destruct (N.le_gt_cases (rowCount t1) 25) as [|Hgt]; auto. exfalso.
          assert (rowCount t1 <= 25); [|lia].
          apply (step_small t a t1 r1); auto. lia.
        - unfold insertions in *. simpl in Hn. destruct (is_insertion a); simpl in *; lia. }
      assert (rowCount t' <= 25).
      { apply (Hb os1 table_init t' rs); auto; simpl; [lia|].
        subst os. unfold insertions in *. rewrite filter_app, app_length in Hn. lia. }
      unfold max_row_count in Hf. lia.
  Qed.
  Lemma apply_visit : forall S (cb : S -> K -> V -> S * bool) s t,
    apply_function K V cb s t = visit K V cb s (enumerate t).
  Proof.
    intros. unfold apply_function, enumerate. destruct (rows t) as [rs|]; auto.
    revert s. induction rs as [|r rs]; intros; simpl; auto.
    destruct r; auto. simpl. destruct (cb s k v) as [s' b]. destruct b; auto.
  Qed.

  Lemma dict_map : forall os t rs, run K V hash keq table_init os = Ok (t, rs) ->
    rs = snd (amap_run K V keq [] os) /\ Permutation (enumerate t) (fst (amap_run K V keq [] os)).
  Proof.
    intros os t rs H.
    destruct (run_refines _ _ _ _ Hequiv Hhash _ _ _ _ _ (refines_init K V hash keq) H) as [[_ A] B]. auto.
  Qed.

  Lemma dict_enumeration : forall os t rs, run K V hash keq table_init os = Ok (t, rs) ->
    exists es, Permutation es (fst (amap_run K V keq [] os)) /\ amap_nodup K V keq es /\
      count t = N.of_nat (length es) /\
      (forall S (cb : S -> K -> V -> S * bool) s, apply_function K V cb s t = visit K V cb s es).
  Proof.
    intros os t rs H.
    destruct (run_refines _ _ _ _ Hequiv Hhash _ _ _ _ _ (refines_init K V hash keq) H) as [A B].
    exists (enumerate t). split; [apply A|]. split; [apply (enumerate_nd _ _ _ _ _ (proj1 A))|].
    split; [|intros; apply apply_visit].
    rewrite (count_refines _ _ _ _ _ _ A). unfold amap_count.
    rewrite (Permutation_length (proj2 A)). auto.
  Qed.

  Lemma run_grown : forall os1 os2 t rs, run K V hash keq table_init os1 = Ok (t, rs) -> 25 < rowCount t ->
    run K V hash keq t os2 <> UB /\ run K V hash keq t os2 <> NoFuel.
  Proof.
    intros os1 os2 t rs H Hrc.
    assert (Hinv : tinv K V hash keq t).
    { apply (run_load os1 table_init t rs); auto. left. auto. }
    split; [|apply run_total; auto].
    destruct (run_safe os2 t Hinv) as [(r & ->)|(-> & _)]; try discriminate.
    intros o1 o2 t' rs' _ Hr [E _]. destruct (run_load _ _ _ _ Hinv Hr) as (_ & A & _). lia.
  Qed.
  Lemma run_inv : forall os t rs, run K V hash keq table_init os = Ok (t, rs) -> tinv K V hash keq t.
  Proof. intros os t rs H. apply (run_load os table_init t rs); auto. left. auto. Qed.

  Lemma probe_partial :
    (forall os : list (op K V), run K V hash keq table_init os <> NoFuel) /\
    (forall (os : list (op K V)) t rs o,
        run K V hash keq table_init os = Ok (t, rs) ->
        ~ (rowCount t = 25 /\ activeCount t + deletedCount t = 11) ->
        step K V hash keq t o <> UB) /\
    (forall (os : list (op K V)) t rs o,
        run K V hash keq table_init os = Ok (t, rs) ->
        step K V hash keq t o = Fatal -> 1675364863 <= rowCount t) /\
    (forall os : list (op K V),
        (length (filter (fun o => match o with OpSet _ _ | OpAdd _ _ | OpReplace _ _ => true | _ => false end) os) <= 10)%nat ->
        exists r, run K V hash keq table_init os = Ok r) /\
    (forall (os1 os2 : list (op K V)) t rs,
        run K V hash keq table_init os1 = Ok (t, rs) -> 25 < rowCount t ->
        run K V hash keq t os2 <> UB).
  Proof.
    repeat split.
    - intros os. apply run_total. left. auto.
    - intros os t rs o H Hno E. apply run_inv in H.
      destruct (step_ok t o H Hno) as [(r & E2)|(E2 & _)]; congruence.
    - intros os t rs o H E. apply run_inv in H.
      destruct (step_total t o H) as [(r & E2)|[(E2 & A)|(E2 & _)]]; try congruence. auto.
    - intros os H. apply run_few. unfold insertions.
      change (fun o => match o with OpSet _ _ | OpAdd _ _ | OpReplace _ _ => true | _ => false end) with is_insertion in H. lia.
    - intros os1 os2 t rs H H2. eapply run_grown; eauto.
  Qed.
End Probe.

Lemma N_equivalence : equivalence N N.eqb.
Proof.
  repeat split; intros; try apply N.eqb_refl; try apply N.eqb_sym.
  apply N.eqb_eq in H, H0. subst. apply N.eqb_refl.
Qed.

Lemma probe_refuted :
  exists (os : list (op N N)) (k : N),
    equivalence N N.eqb /\ hash_respects N N.eqb (fun k => k) /\
    run N N (fun k => k) N.eqb table_init (os ++ [OpGet k]) = UB /\
    run N N (fun k => k) N.eqb table_init (os ++ [OpSet k 0]) = UB.
Proof.
  exists (map (fun k => OpSet k 0) [100;101;104;106;109;111;114;116;119;121;124]), 75.
  split; [apply N_equivalence|]. split; [intros a b H; apply N.eqb_eq in H; auto|].
  split; vm_compute; reflexivity.
Qed.
