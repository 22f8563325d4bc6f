(** The table of the names of classes, with the hash function of the library: the names of the
    classes of the runtime lie in it so that no search leaves it. *)
Require Import Coq.NArith.NArith Coq.Lists.List Coq.Arith.Arith Coq.Bool.Bool Coq.micromega.Lia.
Require Import Verif.Base Verif.Class_Model Verif.Class_Spec Verif.Class_Proofs Verif.Class_Steps Verif.Class_Cases.
Require Verif.HashTable_Model Verif.HashTable_Spec Verif.HashTable_Proofs Verif.HashTable_Probe.
Import ListNotations.

Notation table := (HashTable_Model.table text nat).
Notation row_at := (HashTable_Model.row_at text nat).
Notation tinv0 := (HashTable_Proofs.tinv0 text nat real_hash text_eqb).
Notation find := (HashTable_Model.find text nat real_hash text_eqb).

(** The rows of the classes of the runtime that are never released. *)
Definition name_of (i : nat) : text := match List.find (fun p => Nat.eqb (fst p) i) static_names with Some p => snd p | None => [] end.
Definition anchors : list (N * nat) := [(2, 6%nat); (6, 3%nat); (15, 1%nat); (16, 2%nat); (19, 5%nat); (20, 4%nat); (22, 7%nat); (24, 0%nat)]%N.
Definition anchored (t : table) : Prop :=
  (25 <= HashTable_Model.rowCount t)%N /\
  (HashTable_Model.rowCount t = 25%N -> exists rs, HashTable_Model.rows t = Some rs /\ forall x i, In (x, i) anchors -> row_at rs x = Some (HashTable_Model.Active (name_of i) i)).

(** ** Searching *)
Definition squares : list nat := [0;1;2;3;4;6;7;8;9;11;12].
Definition reached (h : N) : list nat := map (fun n => N.to_nat (fst (HashTable_Proofs.probe 25 h n))) squares.
Lemma reached_gap : forall h, (h < 25)%N -> ~ (In 19 (reached h) /\ In 20 (reached h) /\ In 22 (reached h)).
Proof.
  intros h Hh [A [B C]].
  assert (X : forallb (fun k => negb (existsb (Nat.eqb 19) (reached (N.of_nat k)) && existsb (Nat.eqb 20) (reached (N.of_nat k)) && existsb (Nat.eqb 22) (reached (N.of_nat k)))) (seq 0 25) = true) by (vm_compute; reflexivity).
  rewrite forallb_forall in X. specialize (X (N.to_nat h)). rewrite N2Nat.id in X. assert (I : In (N.to_nat h) (seq 0 25)) by (apply in_seq; lia). specialize (X I).
  assert (Y : forall k, In k (reached h) -> existsb (Nat.eqb k) (reached h) = true) by (intros k Hk; apply existsb_exists; exists k; split; [exact Hk|apply Nat.eqb_refl]).
  rewrite (Y _ A), (Y _ B), (Y _ C) in X. discriminate X.
Qed.
Lemma alloc_of : forall t, HashTable_Proofs.tinv text nat real_hash text_eqb t -> anchored t -> exists rs, tinv0 t rs /\ HashTable_Proofs.load_ok text nat t.
Proof. intros t [->|rs Hi Hl] [H _]; [exfalso; cbn in H; lia|eauto]. Qed.
Lemma row_occupied : forall rs x k v, row_at rs x = Some (HashTable_Model.Active k v) -> In (N.to_nat x) (HashTable_Probe.occupied_positions text nat rs).
Proof.
  intros rs x k v H. unfold HashTable_Model.row_at in H. unfold HashTable_Probe.occupied_positions. apply filter_In. split; [apply in_seq; split; [lia|]; cbn; apply nth_error_Some; congruence|]. now rewrite H.
Qed.
Lemma empty_reached : forall rs h, (h < 25)%N -> length rs = 25 -> (HashTable_Proofs.nactive text nat rs + HashTable_Proofs.ndeleted text nat rs <= 11) ->
  (forall x i, In (x, i) anchors -> row_at rs x = Some (HashTable_Model.Active (name_of i) i)) ->
  exists n, In n squares /\ row_at rs (fst (HashTable_Proofs.probe 25 h n)) = Some HashTable_Model.Empty.
Proof.
  intros rs h Hh Hlen Hle Ha.
  destruct (Exists_dec (fun n => row_at rs (fst (HashTable_Proofs.probe 25 h n)) = Some HashTable_Model.Empty) squares) as [He|Hne].
  { intros n. destruct (row_at rs (fst (HashTable_Proofs.probe 25 h n))) as [[]|]; auto; right; discriminate. }
  { apply Exists_exists in He. destruct He as (n & H1 & H2). eauto. }
  exfalso. destruct HashTable_Probe.cover_25 as [Hnd Hb]. fold squares in Hnd, Hb.
  assert (Hnd' : NoDup (reached h)).
  { unfold reached. apply NoDup_map_inv with (f := fun i => ((N.of_nat i + (25 - h)) mod 25)%N). rewrite map_map. erewrite map_ext_in; [exact Hnd|].
    intros n Hn. cbv beta. rewrite N2Nat.id, HashTable_Probe.probe_closed by (try lia; specialize (Hb _ Hn); lia). rewrite N.add_mod_idemp_l by lia.
    replace (h + N.of_nat n * N.of_nat n + (25 - h))%N with (N.of_nat n * N.of_nat n + 1 * 25)%N by lia. rewrite N.mod_add; [reflexivity|lia]. }
  assert (Hincl : incl (reached h) (HashTable_Probe.occupied_positions text nat rs)).
  { intros i Hi. apply in_map_iff in Hi. destruct Hi as (n & Hfn & Hn).
    assert (Hlt2 : (fst (HashTable_Proofs.probe 25 h n) < 25)%N) by (rewrite HashTable_Probe.probe_closed by (try lia; specialize (Hb _ Hn); lia); apply N.mod_lt; lia).
    unfold HashTable_Probe.occupied_positions. apply filter_In. split; [apply in_seq; lia|].
    destruct (nth_error rs i) as [r|] eqn:E.
    - destruct r; auto. exfalso. apply Hne. apply Exists_exists. exists n. split; [exact Hn|]. unfold HashTable_Model.row_at. rewrite Hfn. exact E.
    - apply nth_error_None in E. lia. }
  assert (Hback : incl (HashTable_Probe.occupied_positions text nat rs) (reached h)).
  { apply NoDup_length_incl; [exact Hnd'| |exact Hincl]. rewrite HashTable_Probe.occupied_positions_length, HashTable_Probe.occupied_count. unfold reached. rewrite map_length. cbn [length squares]. exact Hle. }
  apply (reached_gap h Hh). split; [|split]; apply Hback; [apply (row_occupied rs 19 (name_of 5) 5)|apply (row_occupied rs 20 (name_of 4) 4)|apply (row_occupied rs 22 (name_of 7) 7)]; apply Ha; unfold anchors; cbn; tauto.
Qed.
Lemma finds : forall t rs k, tinv0 t rs -> HashTable_Proofs.load_ok text nat t -> anchored t -> exists r, find rs (HashTable_Model.rowCount t) k = Ok r.
Proof.
  intros t rs k Hi Hl Ha. assert (Hsz := HashTable_Proofs.ti_size _ _ _ _ _ _ Hi). assert (Hh := HashTable_Probe.sizes_half _ Hsz). cbn [fst snd] in Hh. unfold HashTable_Proofs.load_ok in Hl.
  destruct (N.eq_dec (HashTable_Model.rowCount t) 25) as [E|E].
  - destruct Ha as [_ Ha]. destruct (Ha E) as (rs' & Hr & Hx). assert (rs' = rs) by (rewrite (HashTable_Proofs.ti_rows _ _ _ _ _ _ Hi) in Hr; congruence). subst rs'.
    assert (Hlen : length rs = 25) by (rewrite (proj1 (HashTable_Proofs.ti_inv _ _ _ _ _ _ Hi)), E; reflexivity).
    assert (Hle : HashTable_Proofs.nactive text nat rs + HashTable_Proofs.ndeleted text nat rs <= 11).
    { rewrite (HashTable_Proofs.ti_active _ _ _ _ _ _ Hi), (HashTable_Proofs.ti_deleted _ _ _ _ _ _ Hi) in Hl. lia. }
    rewrite E. unfold HashTable_Model.find. cbn [N.eqb Pos.eqb].
    assert (Hb : (real_hash k mod 25 < 25)%N) by (apply N.mod_lt; lia).
    destruct (empty_reached rs _ Hb Hlen Hle Hx) as (n & Hn & He). destruct HashTable_Probe.cover_25 as [_ Hc]. specialize (Hc n Hn).
    apply (HashTable_Probe.find_loop_ok text nat real_hash text_eqb n 0); [|exact He|lia].
    intros j Hj. unfold HashTable_Model.row_at. apply nth_error_Some. rewrite HashTable_Probe.probe_closed by lia.
    assert (A := N.mod_lt (real_hash k mod 25 + N.of_nat j * N.of_nat j) 25 ltac:(lia)). lia.
  - apply (HashTable_Probe.size_find_ok text nat real_hash text_eqb rs _ (HashTable_Model.maxActive t) k Hsz (proj1 (HashTable_Proofs.ti_inv _ _ _ _ _ _ Hi))).
    unfold HashTable_Probe.safe_bound. apply N.eqb_neq in E. rewrite E. rewrite <- (HashTable_Proofs.ti_active _ _ _ _ _ _ Hi), <- (HashTable_Proofs.ti_deleted _ _ _ _ _ _ Hi). lia.
Qed.

(** ** The operations on the table *)
Lemma lookup_fine : forall t n, HashTable_Proofs.tinv text nat real_hash text_eqb t -> anchored t -> exists r, ht_lookup real_hash t n = Ok r.
Proof.
  intros t n Ht Ha. destruct (alloc_of t Ht Ha) as (rs & Hi & Hl). unfold ht_lookup, HashTable_Model.lookup. destruct (0 <? HashTable_Model.activeCount t)%N; [|eauto].
  rewrite (HashTable_Proofs.ti_rows _ _ _ _ _ _ Hi). destruct (finds t rs n Hi Hl Ha) as ([x st] & Hf). rewrite Hf. cbn [obind].
  destruct (HashTable_Proofs.find_spec _ _ _ _ (respects real_hash) _ _ _ _ _ (HashTable_Proofs.ti_inv _ _ _ _ _ _ Hi) Hf) as (_ & Hst & _).
  destruct st; cbn; eauto. destruct Hst as (k' & v' & -> & _). eauto.
Qed.
Lemma remove_fine : forall t n, HashTable_Proofs.tinv text nat real_hash text_eqb t -> anchored t -> exists t', ht_remove real_hash t n = Ok t'.
Proof.
  intros t n Ht Ha. destruct (alloc_of t Ht Ha) as (rs & Hi & Hl). unfold ht_remove, HashTable_Model.remove. destruct (0 <? HashTable_Model.activeCount t)%N; [|eauto].
  rewrite (HashTable_Proofs.ti_rows _ _ _ _ _ _ Hi). destruct (finds t rs n Hi Hl Ha) as ([x st] & Hf). rewrite Hf. cbn [obind snd]. destruct st; eauto.
Qed.
Lemma insert_fine : forall t n i p, HashTable_Proofs.tinv text nat real_hash text_eqb t -> anchored t ->
  (exists r, ht_insert real_hash t n i p = Ok r) \/ (ht_insert real_hash t n i p = Fatal /\ (1675364863 <= HashTable_Model.rowCount t)%N).
Proof.
  intros t n i p Ht Ha. destruct (alloc_of t Ht Ha) as (rs & Hi & Hl). unfold ht_insert, HashTable_Model.insert.
  apply (HashTable_Probe.insert_depth_found text nat real_hash text_eqb equiv (respects real_hash) 1 t rs n i p Hi (finds t rs n Hi Hl Ha)).
  intros t2 rs2 Hi2 Hr Hm Hac Hd. rewrite <- Hr. apply (HashTable_Probe.resize_ok text nat real_hash text_eqb equiv (respects real_hash) 0 t2 rs2 Hi2). unfold HashTable_Proofs.load_ok in Hl. lia.
Qed.
Lemma remove_anchored : forall t n t', HashTable_Proofs.tinv text nat real_hash text_eqb t -> anchored t -> ht_remove real_hash t n = Ok t' ->
  (HashTable_Model.rowCount t = 25%N -> forall x i, In (x, i) anchors -> name_of i <> n) -> anchored t'.
Proof.
  intros t n t' Ht Ha H Hn. destruct (remove_load real_hash t n t' H) as [Er _]. destruct (alloc_of t Ht Ha) as (rs & Hi & _). destruct Ha as [Hge Ha]. split; [lia|]. rewrite Er. intros E. destruct (Ha E) as (rs' & Hr & Hx). specialize (Hn E).
  assert (rs' = rs) by (rewrite (HashTable_Proofs.ti_rows _ _ _ _ _ _ Hi) in Hr; congruence). subst rs'.
  unfold ht_remove, HashTable_Model.remove in H. destruct (0 <? HashTable_Model.activeCount t)%N; [|injection H as <-; eauto]. rewrite Hr in H.
  destruct (find rs (HashTable_Model.rowCount t) n) as [[y st]| | |] eqn:Hf; try discriminate H. cbn [obind snd fst] in H. destruct st; injection H as <-; eauto. cbn [HashTable_Model.rows]. eexists. split; [reflexivity|].
  intros x i Hxi. destruct (HashTable_Proofs.find_spec _ _ _ _ (respects real_hash) _ _ _ _ _ (HashTable_Proofs.ti_inv _ _ _ _ _ _ Hi) Hf) as (_ & (k' & v' & Hy & Hk) & _). apply text_eqb_eq in Hk. subst k'.
  rewrite HashTable_Proofs.row_at_write_neq; [now apply Hx|]. intros ->. rewrite (Hx x i Hxi) in Hy. injection Hy as Hy _. exact (Hn x i Hxi Hy).
Qed.
Lemma many : forall rs, (forall x i, In (x, i) anchors -> row_at rs x = Some (HashTable_Model.Active (name_of i) i)) -> 8 <= HashTable_Proofs.nactive text nat rs.
Proof.
  intros rs Ha. rewrite <- HashTable_Proofs.active_rows_length.
  assert (X : NoDup (map (fun p => (name_of (snd p), snd p)) anchors)).
  { apply (NoDup_map_inv snd). rewrite map_map. cbn. repeat (constructor; [cbn; intuition discriminate|]). constructor. }
  apply NoDup_incl_length with (l' := HashTable_Model.active_rows rs) in X; [exact X|]. intros [n i] Hin. apply in_map_iff in Hin. destruct Hin as ([x j] & E & Hin). cbn [snd] in E. injection E as <- <-. apply HashTable_Proofs.active_rows_in. exists x. now apply Ha.
Qed.
Lemma resize_grows : forall d t rs t', tinv0 t rs -> (HashTable_Model.activeCount t + HashTable_Model.deletedCount t = HashTable_Model.maxActive t)%N -> (HashTable_Model.deletedCount t < HashTable_Model.activeCount t)%N ->
  HashTable_Model.resize_and_rehash text nat (HashTable_Model.insert_depth text nat real_hash text_eqb (S d)) t = Ok t' -> (HashTable_Model.rowCount t < HashTable_Model.rowCount t')%N.
Proof.
  intros d t rs t' Hi E Hd H. unfold HashTable_Model.resize_and_rehash in H. rewrite E, N.ltb_irrefl in H. apply N.ltb_lt in Hd. rewrite Hd, orb_true_r in H. apply N.ltb_lt in Hd.
  unfold HashTable_Model.next_hash_table_size in H. destruct (HashTable_Model.next_size_in HashTable_Model.hash_table_sizes (HashTable_Model.rowCount t)) as [[rc ma]|] eqn:En; [|discriminate H]. cbn [obind] in H.
  destruct (HashTable_Proofs.next_size_facts _ _ En) as [Hin Hlt]. cbn [fst] in Hlt. assert (Hsz := HashTable_Proofs.ti_size _ _ _ _ _ _ Hi). rewrite (HashTable_Proofs.ti_rows _ _ _ _ _ _ Hi) in H.
  assert (Hm : (snd (HashTable_Model.rowCount t, HashTable_Model.maxActive t) < snd (rc, ma))%N) by (apply HashTable_Proofs.sizes_monotone; auto). cbn [snd] in Hm.
  apply (HashTable_Proofs.reinsert_spec _ _ _ _ equiv (respects real_hash) d rs _ (repeat HashTable_Model.Empty (N.to_nat rc))) in H.
  - destruct H as (rs' & _ & _ & _ & A & _). cbn [HashTable_Model.rowCount] in A. lia.
  - constructor; cbn [HashTable_Model.rows HashTable_Model.rowCount HashTable_Model.maxActive HashTable_Model.activeCount HashTable_Model.deletedCount]; auto.
    + apply HashTable_Proofs.rows_inv_fresh.
    + now rewrite HashTable_Proofs.nactive_repeat.
    + now rewrite HashTable_Proofs.ndeleted_repeat.
  - reflexivity.
  - cbn [HashTable_Model.activeCount HashTable_Model.maxActive]. rewrite <- (HashTable_Proofs.ti_active _ _ _ _ _ _ Hi). lia.
  - rewrite HashTable_Proofs.active_rows_repeat, app_nil_r. eapply HashTable_Proofs.enumerate_nodup. exact (HashTable_Proofs.ti_inv _ _ _ _ _ _ Hi).
Qed.
Lemma insert_anchored : forall t n i t' b, HashTable_Proofs.tinv text nat real_hash text_eqb t -> anchored t -> ht_insert real_hash t n i HashTable_Model.InsertIfNotFound = Ok (t', b) -> anchored t'.
Proof.
  intros t n i t' b Ht Ha H. destruct (HashTable_Probe.insert_load text nat real_hash text_eqb equiv (respects real_hash) t n i HashTable_Model.InsertIfNotFound t' b Ht H) as [_ Hle]. destruct (N.eq_dec (HashTable_Model.rowCount t) 25) as [E|E].
  2:{ destruct Ha as [Hge _]. split; [lia|]. intros X. lia. }
  destruct (alloc_of t Ht Ha) as (rs & Hi & Hl). destruct Ha as [_ Ha]. destruct (Ha E) as (rs' & Hr & Hx). assert (rs' = rs) by (rewrite (HashTable_Proofs.ti_rows _ _ _ _ _ _ Hi) in Hr; congruence). subst rs'.
  unfold ht_insert, HashTable_Model.insert in H. cbn [HashTable_Model.insert_depth] in H. fold (HashTable_Model.insert_depth text nat real_hash text_eqb 1) in H. rewrite Hr in H. cbn [obind] in H. rewrite Hr in H.
  destruct (find rs (HashTable_Model.rowCount t) n) as [[y st]| | |] eqn:Hf; try discriminate H. cbn [obind] in H.
  destruct (HashTable_Proofs.find_spec _ _ _ _ (respects real_hash) _ _ _ _ _ (HashTable_Proofs.ti_inv _ _ _ _ _ _ Hi) Hf) as (Hreach & Hst & Hno).
  destruct (row_at rs y) as [r|] eqn:Ey; [|discriminate H].
  assert (Main : HashTable_Proofs.is_active text nat r = false -> (st = HashTable_Model.FDeleted -> r = HashTable_Model.Deleted) -> (st = HashTable_Model.FEmpty -> r = HashTable_Model.Empty) -> st <> HashTable_Model.FActive ->
    let t2 := HashTable_Model.mkTable (Some (HashTable_Model.write_row text nat rs y (HashTable_Model.Active n i))) (HashTable_Model.activeCount t + 1)%N (match st with HashTable_Model.FDeleted => HashTable_Model.deletedCount t - 1 | _ => HashTable_Model.deletedCount t end)%N (HashTable_Model.rowCount t) (HashTable_Model.maxActive t) in
    HashTable_Model.resize_and_rehash text nat (HashTable_Model.insert_depth text nat real_hash text_eqb 1) t2 = Ok t' -> anchored t').
  { intros Hact Hd1 Hd2 Hna t2 Hres.
    assert (Hi2 : tinv0 t2 (HashTable_Model.write_row text nat rs y (HashTable_Model.Active n i))).
    { destruct (HashTable_Proofs.row_at_split _ _ _ _ _ (HashTable_Model.Active n i) Ey) as (l1 & l2 & E1 & E2). assert (Hi0 := Hi). destruct Hi0 as [Hrows Hri Hsize Hac Hdel].
      constructor; cbn [t2 HashTable_Model.rows HashTable_Model.rowCount HashTable_Model.maxActive HashTable_Model.activeCount HashTable_Model.deletedCount]; auto.
      - apply (HashTable_Proofs.rows_inv_insert text nat real_hash text_eqb equiv rs _ y n i r Hri Ey Hact Hreach). now apply Hno.
      - rewrite E2. rewrite E1 in Hac. rewrite Hac, !HashTable_Proofs.nactive_app, !HashTable_Proofs.nactive_cons, Hact. cbn. lia.
      - rewrite E2. rewrite E1 in Hdel. rewrite Hdel, !HashTable_Proofs.ndeleted_app, !HashTable_Proofs.ndeleted_cons. destruct st; [rewrite (Hd2 eq_refl)|rewrite (Hd1 eq_refl)|congruence]; cbn; lia. }
    assert (Hx2 : forall x j, In (x, j) anchors -> row_at (HashTable_Model.write_row text nat rs y (HashTable_Model.Active n i)) x = Some (HashTable_Model.Active (name_of j) j)).
    { intros x j Hj. rewrite HashTable_Proofs.row_at_write_neq; [now apply Hx|]. intros ->. rewrite (Hx x j Hj) in Ey. injection Ey as <-. discriminate Hact. }
    assert (Hsz := HashTable_Proofs.ti_size _ _ _ _ _ _ Hi). assert (Hh := HashTable_Probe.sizes_half _ Hsz). cbn [fst snd] in Hh. unfold HashTable_Proofs.load_ok in Hl.
    assert (Hle2 : (HashTable_Model.activeCount t2 + HashTable_Model.deletedCount t2 <= HashTable_Model.maxActive t2)%N) by (cbn [t2 HashTable_Model.activeCount HashTable_Model.deletedCount HashTable_Model.maxActive]; destruct st; lia).
    destruct (N.lt_ge_cases (HashTable_Model.activeCount t2 + HashTable_Model.deletedCount t2) (HashTable_Model.maxActive t2)) as [Hlt|Hge].
    - rewrite (HashTable_Proofs.resize_noop _ _ _ _ Hlt) in Hres. injection Hres as <-. split; [cbn; lia|]. intros _. eexists. split; [reflexivity|exact Hx2].
    - apply (resize_grows 0 t2 _ t' Hi2) in Hres; [|lia|].
      + change (HashTable_Model.rowCount t2) with (HashTable_Model.rowCount t) in Hres. split; [lia|]. intros X. lia.
      + pose proof (many _ Hx2) as M. rewrite (HashTable_Proofs.ti_active _ _ _ _ _ _ Hi2). assert (M' : (8 <= HashTable_Model.activeCount t2)%N) by (rewrite (HashTable_Proofs.ti_active _ _ _ _ _ _ Hi2); lia). rewrite <- (HashTable_Proofs.ti_active _ _ _ _ _ _ Hi2).
        change (HashTable_Model.maxActive t2) with (HashTable_Model.maxActive t) in Hle2. lia. }
  destruct st.
  - injection Hst as ->. cbn [HashTable_Model.row_update] in H. apply obind_ok in H. destruct H as (t3 & H & H2). injection H2 as -> _. apply Main; auto; discriminate.
  - injection Hst as ->. cbn [HashTable_Model.row_update] in H. apply obind_ok in H. destruct H as (t3 & H & H2). injection H2 as -> _. apply Main; auto; discriminate.
  - injection H as <- _. split; [lia|]. intros _. eauto.
Qed.

(** ** Worlds *)
Definition rooted (w : world) : Prop := forall x i, In (x, i) anchors -> exists o k, is_cell w i o /\ counted o = false /\ what o = Some k /\ cname k = Some (name_of i).
Lemma rooted_shape : forall w w', shape w' = shape w -> rooted w -> rooted w'.
Proof. intros w w' E H x i Hx. destruct (H x i Hx) as (o & k & Ho & Hc & Hw & Hn). destruct (shape_cell w w' i o E Ho) as (o' & Ho' & _ & E1 & E2). exists o', k. rewrite E1, E2. auto. Qed.
Lemma rooted_grow : forall w c, rooted w -> rooted (grow w c).
Proof. intros w c H x i Hx. destruct (H x i Hx) as (o & k & Ho & R). exists o, k. split; [apply grow_cell; now left|exact R]. Qed.
Lemma rooted_named : forall w x i, rooted w -> In (x, i) anchors -> named w i (name_of i).
Proof. intros w x i H Hx. destruct (H x i Hx) as (o & k & Ho & Hc & Hw & Hn). exists o, k. unfold live. rewrite Hc. auto. Qed.
Definition settled (w : world) : Prop := anchored (names w) /\ rooted w.
Notation good := (Class_Proofs.good real_hash).
Notation named_by := (Class_Proofs.named_by real_hash).
Lemma named_tinv : forall w, named_by w -> HashTable_Proofs.tinv text nat real_hash text_eqb (names w).
Proof. intros w (m & Hm & _). exact (proj1 Hm). Qed.

Lemma remove_settled : forall w i o k w', named_by w -> settled w -> is_cell w i o -> counted o = true -> live o = true -> what o = Some k ->
  remove_name real_hash (put w i (with_refs o 0)) (cname k) = Ok w' -> settled w'.
Proof.
  intros w i o k w' Hn [Ha Hr] Hi Hc Hl Hw H. assert (Eh := remove_name_heap real_hash _ _ _ H). split.
  2:{ apply (rooted_shape w); [|exact Hr]. rewrite <- (shape_put w i o 0 Hi). unfold shape. now rewrite Eh. }
  destruct (cname k) as [n|] eqn:En; cbn [remove_name] in H.
  - change (names (put w i (with_refs o 0))) with (names w) in H. destruct (ht_remove real_hash (names w) n) as [t| | |] eqn:E; try discriminate H. cbn [obind] in H. injection H as <-. cbn [names].
    apply (remove_anchored (names w) n t (named_tinv w Hn) Ha E). intros _ x j Hx En'. destruct (Hr x j Hx) as (p & kp & Hp & Hcp & _).
    assert (i = j). { apply (named_unique real_hash w i j n Hn); [exists o, k; auto|]. rewrite <- En'. now apply (rooted_named w x). }
    subst j. assert (p = o) by (unfold is_cell in *; congruence). congruence.
  - assert (names w' = names w) as ->; [|exact Ha]. change (names w) with (names (put w i (with_refs o 0))). destruct (0 <? HashTable_Model.activeCount (names (put w i (with_refs o 0))))%N; [|congruence]. destruct (HashTable_Model.rows (names (put w i (with_refs o 0)))); [|discriminate H]. destruct (_ =? 0)%N; [discriminate H|]. destruct (null_loop _ _ _ _); try discriminate H. cbn [obind] in H. congruence.
Qed.
Lemma put_settled : forall w i o n, is_cell w i o -> settled w -> settled (put w i (with_refs o n)).
Proof. intros w i o n Hi [Ha Hr]. split; [exact Ha|]. apply (rooted_shape w); [now apply shape_put|exact Hr]. Qed.
Lemma release_settled : forall fuel w l i w', good w (i :: l) -> settled w -> release real_hash fuel w i = Ok w' -> settled w'.
Proof.
  induction fuel as [|fuel IH]; intros w l i w' [Hc Hn] Hs H; [discriminate H|]. cbn [release] in H. destruct (get w i) as [o| | |] eqn:E; try discriminate H. cbn [obind] in H. apply get_inv in E. destruct E as [Hi Hl].
  destruct (counted o) eqn:Ec; cbn [negb] in H; [|injection H as <-; exact Hs].
  destruct (1 <? refs o) eqn:E1; [injection H as <-; now apply put_settled|].
  apply Nat.ltb_ge in E1. assert (R1 : refs o = 1) by (unfold live in Hl; rewrite Ec in Hl; cbn [negb orb] in Hl; apply Nat.ltb_lt in Hl; lia).
  destruct (classes_of w (isa o)); try discriminate H. cbn [obind] in H. pose proof (counts_last w l i o Hc Hi Ec R1) as C1.
  destruct (what o) as [k|] eqn:Ew.
  - destruct (remove_name real_hash (put w i (with_refs o 0)) (cname k)) as [w1| | |] eqn:Er; try discriminate H. cbn [obind] in H.
    destruct (remove_named real_hash w i o k w1 Hn Hi Ec Hl Ew Er) as [Eh Hn1]. pose proof (remove_settled w i o k w1 Hn Hs Hi Ec Hl Ew Er) as S1.
    assert (C2 : counts w1 (super_list (Some k) ++ isa o :: l)). { destruct w1 as [h1 t1]. cbn [heap] in Eh. subst h1. exact (counts_names _ _ t1 C1). }
    cbn [super_list] in C2. destruct (csuper k) as [s|].
    + destruct (release real_hash fuel w1 s) as [w2| | |] eqn:E2; try discriminate H. cbn [obind] in H. apply (IH w2 l (isa o) w'); [|now apply (IH w1 (isa o :: l) s w2); [split|..]|exact H]. apply (release_good real_hash fuel w1 (isa o :: l) s w2); [|exact E2]. split; assumption.
    + cbn [obind] in H. apply (IH w1 l (isa o) w'); [|exact S1|exact H]. split; assumption.
  - cbn [obind] in H. apply (IH (put w i (with_refs o 0)) l (isa o) w'); [|now apply put_settled|exact H]. split; [exact C1|]. now apply named_dead_object.
Qed.

Lemma init_settled : forall w, runtime_init real_hash = Ok w -> settled w.
Proof.
  intros w H. assert (E : w = val w0) by (unfold w0; rewrite H; reflexivity). subst w. split.
  - split; [vm_compute; discriminate|]. intros _. destruct (HashTable_Model.rows (names (val w0))) as [rs|] eqn:Er; [|vm_compute in Er; discriminate Er]. exists rs. split; [reflexivity|].
    intros x i Hx. assert (A : Forall (fun p => match HashTable_Model.rows (names (val w0)) with Some rs => row_at rs (fst p) | None => None end = Some (HashTable_Model.Active (name_of (snd p)) (snd p))) anchors).
    { unfold anchors. repeat (apply Forall_cons; [vm_compute; reflexivity|]). apply Forall_nil. }
    rewrite Er in A. rewrite Forall_forall in A. exact (A (x, i) Hx).
  - intros x i Hx. assert (A : Forall (fun p => match nth_error (heap (val w0)) (snd p) with Some o => counted o = false /\ match what o with Some k => cname k = Some (name_of (snd p)) | None => False end | None => False end) anchors).
    { unfold anchors. repeat (apply Forall_cons; [vm_compute; split; reflexivity|]). apply Forall_nil. }
    rewrite Forall_forall in A. specialize (A (x, i) Hx). cbn [snd] in A. unfold is_cell. destruct (nth_error (heap (val w0)) i) as [o|] eqn:Eo; [|destruct A]. destruct A as [A1 A2]. destruct (what o) as [k|] eqn:Ek; [|destruct A2]. exists o, k. auto.
Qed.
Theorem reach_settled : forall w c, reach real_hash w c -> settled w.
Proof.
  intros w c H. induction H as [w H|w c n s pre abs unc imm w' i Hr IH H|w c k w' i Hr IH H|w c i w' r Hr IH H|w c i w' r Hr IH Hi H].
  - now apply init_settled.
  - cbn [step] in H. destruct (new_class real_hash w n s pre abs unc imm) as [[w1 j]| | |] eqn:E; try discriminate H. cbn [obind fst snd] in H. injection H as <- <-.
    apply reach_good in Hr. destruct Hr as [G _].
    apply new_class_inv in E. destruct E as (w2 & w3 & ct & Hsup & H1 & Hd & H2 & Ej & H3).
    assert (G2 : exists l2, good w2 l2 /\ names w2 = names w /\ rooted w2).
    { destruct s as [s|]; cbn [retain_opt] in H1; [|injection H1 as <-; exists (c ++ [8; 9]); split; [exact G|split; [reflexivity|apply IH]]].
      exists (s :: c ++ [8; 9]). split; [now apply (retain_good real_hash w _ s)|]. split; [now apply (retain_names w s)|]. apply (rooted_shape w); [now apply (retain_shape w s)|apply IH]. }
    destruct G2 as (l2 & G2 & N2 & R2). pose proof (retain_good real_hash w2 l2 1 w3 G2 H2) as G3. pose proof (retain_names w2 1 w3 H2) as N3.
    assert (R3 : rooted w3) by (apply (rooted_shape w2); [now apply (retain_shape w2 1)|exact R2]).
    assert (A3 : anchored (names w3)) by (rewrite N3, N2; apply IH).
    destruct n as [nm|]; cbn [insert_name] in H3; [|injection H3 as <-; split; [exact A3|now apply rooted_grow]].
    change (names (grow w3 (mkCell 1 1 ct (Some (mkCls (Some nm) s pre abs unc imm))))) with (names w3) in H3.
    destruct (ht_insert real_hash (names w3) nm j HashTable_Model.InsertIfNotFound) as [[tb b]| | |] eqn:Et; try discriminate H3. cbn [obind fst snd] in H3. destruct b; [|discriminate H3]. injection H3 as <-. split.
    + exact (insert_anchored (names w3) nm j tb true (named_tinv w3 (proj2 G3)) A3 Et).
    + apply (rooted_shape (grow w3 (mkCell 1 1 ct (Some (mkCls (Some nm) s pre abs unc imm))))); [reflexivity|now apply rooted_grow].
  - cbn [step] in H. destruct (alloc w k None) as [[w1 j]| | |] eqn:E; try discriminate H. cbn [obind fst snd] in H. injection H as <- <-. apply alloc_inv in E. destruct E as (kc & w2 & _ & _ & H1 & -> & _). destruct IH as [A R]. split.
    + change (anchored (names w2)). rewrite (retain_names w k w2 H1). exact A.
    + apply rooted_grow. apply (rooted_shape w); [now apply (retain_shape w k)|exact R].
  - cbn [step] in H. destruct (retain w i) as [w1| | |] eqn:E; try discriminate H. cbn [obind] in H. injection H as <- _. destruct IH as [A R]. split; [rewrite (retain_names w i w1 E); exact A|]. apply (rooted_shape w); [now apply (retain_shape w i)|exact R].
  - cbn [step] in H. destruct (release real_hash (S (length (heap w))) w i) as [w1| | |] eqn:E; try discriminate H. cbn [obind] in H. injection H as <- _. apply reach_good in Hr. destruct Hr as [G _].
    apply (release_settled (S (length (heap w))) w (drop i c ++ [8; 9]) i w1); [|exact IH|exact E]. apply (good_ext real_hash w (c ++ [8; 9])); [intros j; symmetry; now apply cnt_drop_app|exact G].
Qed.

(** ** Calls *)
Theorem search_ok : forall w c n, reach real_hash w c -> exists r, class_from_string real_hash w n = Ok r.
Proof.
  intros w c n H. pose proof (reach_settled w c H) as [A _]. apply reach_good in H. destruct H as [[_ N] _]. destruct (lookup_fine (names w) n (named_tinv w N) A) as (r & E). unfold class_from_string. rewrite E. cbn [obind]. eauto.
Qed.
Theorem making_ok : forall w c n s pre abs unc imm, reach real_hash w c -> (forall s', s = Some s' -> is_class w s') ->
  let o := NewClass n s pre abs unc imm in
  (exists w' i, step real_hash w o = Ok (w', Some i) /\ ~ exists_ w i /\ (exists p k, is_cell w' i p /\ live p = true /\ what p = Some k /\ cname k = n /\ csuper k = s /\ abstract k = abs /\ prevent k = pre /\ uncounted k = unc /\ immutable k = imm)) \/
  (step real_hash w o = Fatal /\ ((exists s', s = Some s' /\ final_class w s') \/ (exists x j, n = Some x /\ named w j x) \/ names_full w)).
Proof.
  intros w c n s pre abs unc imm H Hs. apply (new_class_core real_hash w c n s pre abs unc imm H Hs). intros w2 n2 i N2 E2. pose proof (reach_settled w c H) as [A _]. rewrite <- E2 in A. cbn [insert_name].
  destruct (insert_fine (names w2) n2 i HashTable_Model.InsertIfNotFound (named_tinv w2 N2) A) as [([t b] & E)|(E & F)]; rewrite E; cbn [obind fst snd]; [|right; split; [reflexivity|right; exact F]].
  destruct b; [left; eauto|right]. split; [reflexivity|]. left. destruct N2 as (m & Hm & Hn).
  destruct (HashTable_Proofs.insert_refines text nat real_hash text_eqb equiv (respects real_hash) (names w2) m n2 i HashTable_Model.InsertIfNotFound t false Hm E) as [_ Hb]. destruct (HashTable_Spec.amap_get text nat text_eqb m n2) as [[n' j]|] eqn:G; [|discriminate Hb].
  exists j. apply Hn. apply (in_get real_hash _ m n2 j Hm). rewrite G. reflexivity.
Qed.
Definition all_named (w : world) : Prop := ~ exists i, nameless w i.
Lemma release_fine : forall fuel w l i o, good w (i :: l) -> settled w -> all_named w -> is_cell w i o -> 0 < fuel -> (counted o = true -> S i < fuel) ->
  exists w', release real_hash fuel w i = Ok w' /\ all_named w'.
Proof.
  assert (Sub : forall w w', (forall i, nameless w' i -> nameless w i) -> all_named w -> all_named w') by (intros w w' X A (j & B); apply A; exists j; auto).
  induction fuel as [|fuel IH]; intros w l i o Hg Hs Ha Hi Hf Hf2; [lia|]. assert (Hg0 := Hg). destruct Hg0 as [Hc Hn]. cbn [release].
  assert (Hl : live o = true) by (apply (ref_live w (i :: l) i o Hc Hi); now left). rewrite (get_live w i o Hi Hl). cbn [obind]. destruct (counted o) eqn:Ec; cbn [negb]; [|eauto]. specialize (Hf2 eq_refl).
  destruct (1 <? refs o) eqn:E1.
  - eexists. split; [reflexivity|]. apply (Sub w); [now apply nameless_put|exact Ha].
  - apply Nat.ltb_ge in E1. assert (R1 : refs o = 1) by (unfold live in Hl; rewrite Ec in Hl; cbn [negb orb] in Hl; apply Nat.ltb_lt in Hl; lia).
    destruct (isa_live w _ i o Hc Hi Hl) as (p & kp & Hp & Hlp & Hkp & Hlt). destruct (classes_ok w _ (isa o) Hc) as (r & ->); [exists p, kp; auto|]. cbn [obind]. pose proof (counts_last w l i o Hc Hi Ec R1) as C1.
    assert (A1 : all_named (put w i (with_refs o 0))) by (apply (Sub w); [now apply nameless_put|exact Ha]).
    assert (Last : forall w2, shape w2 = shape w -> good w2 (isa o :: l) -> settled w2 -> all_named w2 -> exists w', release real_hash fuel w2 (isa o) = Ok w' /\ all_named w').
    { intros w2 Es Hg2 Hs2 Ha2. destruct (shape_cell w w2 (isa o) p Es Hp) as (p' & Hp' & _ & Ecp & _). apply (IH w2 l (isa o) p' Hg2 Hs2 Ha2 Hp'); [lia|]. rewrite Ecp. intros X. specialize (Hlt X). lia. }
    destruct (what o) as [k|] eqn:Ew.
    + destruct (cname k) as [n|] eqn:En; [|exfalso; apply Ha; exists i, o, k; auto].
      assert (Er : exists w1, remove_name real_hash (put w i (with_refs o 0)) (Some n) = Ok w1).
      { cbn [remove_name]. change (names (put w i (with_refs o 0))) with (names w). destruct (remove_fine (names w) n (named_tinv w Hn) (proj1 Hs)) as (t & Et). rewrite Et. cbn [obind]. eauto. }
      destruct Er as (w1 & Er). rewrite Er. cbn [obind]. rewrite <- En in Er. destruct (remove_named real_hash w i o k w1 Hn Hi Ec Hl Ew Er) as [Eh Hn1]. pose proof (remove_settled w i o k w1 Hn Hs Hi Ec Hl Ew Er) as S1.
      assert (C2 : counts w1 (super_list (Some k) ++ isa o :: l)). { destruct w1 as [h1 t1]. cbn [heap] in Eh. subst h1. exact (counts_names _ _ t1 C1). }
      assert (Es : shape w1 = shape w) by (rewrite <- (shape_put w i o 0 Hi); unfold shape; now rewrite Eh).
      assert (A2 : all_named w1). { apply (Sub w); [|exact Ha]. intros j X. apply (nameless_put w i o 0 Hi Hl). unfold nameless, is_cell in *. now rewrite <- Eh. }
      cbn [super_list] in C2. destruct (csuper k) as [s|] eqn:Esup.
      * destruct (super_live w _ i o k s Hc Hi Hl Ew Esup) as (Hss & q & kq & Hq & _). destruct (shape_cell w w1 s q Es Hq) as (q' & Hq' & _). destruct (IH w1 (isa o :: l) s q') as (w2 & E2 & A3); [split; assumption|exact S1|exact A2|exact Hq'|lia|intros; lia|].
        rewrite E2. cbn [obind]. apply Last; [rewrite (release_shape _ _ _ _ _ E2); exact Es| | |exact A3].
        -- apply (release_good real_hash fuel w1 (isa o :: l) s); [split; assumption|exact E2].
        -- apply (release_settled fuel w1 (isa o :: l) s); [split; assumption|exact S1|exact E2].
      * cbn [obind]. apply Last; [exact Es|split; assumption|exact S1|exact A2].
    + cbn [obind]. apply Last; [now apply shape_put| |now apply put_settled|exact A1]. split; [exact C1|now apply named_dead_object].
Qed.
Theorem release_ok : forall w c i, reach real_hash w c -> In i c -> (forall j, ~ nameless w j) -> exists w', step real_hash w (Release i) = Ok (w', None) /\ forall j, ~ nameless w' j.
Proof.
  intros w c i H Hi Ha. pose proof (reach_settled w c H) as Hs. apply reach_good in H. destruct H as [Hg _]. destruct (owned_live w _ i (proj1 Hg)) as (o & Ho & _); [apply in_or_app; left; exact Hi|]. cbn [step].
  destruct (release_fine (S (length (heap w))) w (drop i c ++ [8; 9]) i o) as (w' & E & A).
  - apply (good_ext real_hash w (c ++ [8; 9])); [intros j; symmetry; now apply cnt_drop_app|exact Hg].
  - exact Hs.
  - intros (j & X). exact (Ha j X).
  - exact Ho.
  - lia.
  - intros _. apply in_range in Ho. lia.
  - rewrite E. cbn [obind]. exists w'. split; [reflexivity|]. intros j X. apply A. eauto.
Qed.
