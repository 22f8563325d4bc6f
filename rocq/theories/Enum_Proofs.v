(** Proofs about enumerations. *)
Require Import Coq.ZArith.ZArith Coq.NArith.NArith Coq.Lists.List Coq.Arith.Arith Coq.Bool.Bool Coq.micromega.Lia Coq.Sorting.Permutation.
Require Import Verif.Base Verif.HashTable_Model Verif.HashTable_Spec Verif.HashTable_Proofs Verif.HashTable_Probe Verif.Enum_Model Verif.Enum_Spec.
Import ListNotations.

Lemma key_eqb_eq : forall a b, key_eqb a b = true <-> a = b.
Proof. intros [a|] [b|]; cbn [key_eqb]; try (split; congruence). destruct (list_eq_dec N.eq_dec a b); split; congruence. Qed.
Definition key_dec : forall a b : key, {a = b} + {a <> b}.
Proof. decide equality. apply (list_eq_dec N.eq_dec). Defined.
Lemma key_eqb_refl : forall a, key_eqb a a = true.
Proof. intros a. now apply key_eqb_eq. Qed.
Lemma equiv : equivalence key key_eqb.
Proof.
  split; [exact key_eqb_refl|]. split; intros.
  - destruct (key_eqb a b) eqn:E, (key_eqb b a) eqn:F; try reflexivity; [apply key_eqb_eq in E|apply key_eqb_eq in F]; subst; rewrite key_eqb_refl in *; discriminate.
  - apply key_eqb_eq in H, H0. apply key_eqb_eq. congruence.
Qed.
Lemma respects : forall hash, hash_respects key key_eqb hash.
Proof. intros hash a b H. apply key_eqb_eq in H. now subst. Qed.

Section Map.
Variable V : Type.
Notation get := (amap_get key V key_eqb).
Notation set := (amap_set key V key_eqb).
Lemma get_in : forall m k v, amap_nodup key V key_eqb m -> (In (k, v) m <-> get m k = Some (k, v)).
Proof.
  intros m k v Hm. split.
  - intros H. apply (amap_get_some key V key_eqb equiv); [exact Hm|]. split; [exact H|apply key_eqb_refl].
  - intros H. apply (amap_get_some key V key_eqb equiv) in H; [tauto|exact Hm].
Qed.
Lemma get_key : forall m k k' v, amap_nodup key V key_eqb m -> get m k = Some (k', v) -> k' = k.
Proof. intros m k k' v Hm H. apply (amap_get_some key V key_eqb equiv) in H; [|exact Hm]. now apply key_eqb_eq. Qed.
Lemma get_none : forall m k, get m k = None <-> ~ In k (map fst m).
Proof.
  intros m k. rewrite amap_get_none. split.
  - intros H Hi. apply in_map_iff in Hi. destruct Hi as (e & E & He). specialize (H e He). rewrite E, key_eqb_refl in H. discriminate.
  - intros H e He. destruct (key_eqb (fst e) k) eqn:E; [|reflexivity]. apply key_eqb_eq in E. destruct H. subst k. now apply in_map.
Qed.
Lemma set_in : forall m k v k' v', In (k', v') (set m k v) <-> (k' = k /\ v' = v) \/ (k' <> k /\ In (k', v') m).
Proof.
  intros m k v k' v'. unfold amap_set. destruct (get m k) as [[k0 v0]|] eqn:E.
  - assert (Hk : In k (map fst m)). { destruct (in_dec key_dec k (map fst m)) as [H|H]; [exact H|]. apply get_none in H. congruence. }
    unfold amap_overwrite. rewrite in_map_iff. split.
    + intros (e & Ee & He). destruct (key_eqb (fst e) k) eqn:F.
      * apply key_eqb_eq in F. injection Ee as <- <-. left. auto.
      * subst e. right. split; [|exact He]. intros ->. cbn in F. rewrite key_eqb_refl in F. discriminate.
    + intros [[-> ->]|[Hne H]].
      * apply in_map_iff in Hk. destruct Hk as (e & Ee & He). exists e. rewrite Ee, key_eqb_refl. auto.
      * exists (k', v'). split; [|exact H]. cbn [fst]. destruct (key_eqb k' k) eqn:F; [|reflexivity]. apply key_eqb_eq in F. congruence.
  - apply get_none in E. cbn [In]. split.
    + intros [H|H]; [injection H as <- <-; auto|]. right. split; [|exact H]. intros ->. apply E. apply in_map_iff. exists (k, v'). auto.
    + intros [[-> ->]|[_ H]]; auto.
Qed.
End Map.

(** Entries in order. *)
Lemma means_snoc : forall es s v s' v', means (es ++ [(s, v)]) s' v' <-> (s' = s /\ v' = v) \/ (s' <> s /\ means es s' v').
Proof.
  intros es s v s' v'. split.
  - intros (a & b & E & H). destruct (exists_last (l := (s', v') :: b)) as (b' & x & Eb); [discriminate|].
    rewrite Eb in E. rewrite app_assoc in E. apply app_inj_tail in E. destruct E as [E <-]. destruct b' as [|y b'].
    + cbn in Eb. injection Eb as -> -> ->. auto.
    + cbn in Eb. injection Eb as <- ->. right. rewrite map_app, in_app_iff in H. cbn [map fst In] in H. split; [intros ->; tauto|]. exists a, b'. split; [rewrite E; reflexivity|tauto].
  - intros [[-> ->]|[Hne (a & b & -> & H)]].
    + exists es, []. split; [reflexivity|]. intros [].
    + exists a, (b ++ [(s, v)]). split; [rewrite <- app_assoc; reflexivity|]. rewrite map_app, in_app_iff. cbn [map fst In]. intros [X|[X|[]]]; [tauto|congruence].
Qed.
Lemma means_fun : forall es s v v', means es s v -> means es s v' -> v = v'.
Proof.
  intros es. induction es as [|[s0 v0] es IH] using rev_ind; intros s v v' H H'; [destruct H as ([|] & b & E & _); discriminate E|].
  apply means_snoc in H, H'. destruct H as [[-> ->]|[Hn H]], H' as [[E ->]|[Hn' H']]; try congruence. eauto.
Qed.
Lemma means_some : forall es s, In s (map fst es) <-> exists v, means es s v.
Proof.
  intros es s. induction es as [|[s0 v0] es IH] using rev_ind.
  - split; [intros []|]. intros (v & [|] & b & E & _); discriminate E.
  - rewrite map_app, in_app_iff. cbn [map fst In]. split.
    + intros H. destruct (list_eq_dec N.eq_dec s s0) as [->|Hn]; [exists v0; apply means_snoc; auto|]. destruct H as [H|[H|[]]]; [|congruence]. apply IH in H. destruct H as (v & H). exists v. apply means_snoc. auto.
    + intros (v & H). apply means_snoc in H. destruct H as [[-> ->]|[_ H]]; [auto|]. left. apply IH. eauto.
Qed.

Section Enum.
Variable hash : key -> N.
Notation refines := (HashTable_Proofs.refines key Z hash key_eqb).
Notation tinv := (HashTable_Proofs.tinv key Z hash key_eqb).
Notation tinv0 := (HashTable_Proofs.tinv0 key Z hash key_eqb).
Notation insert := (HashTable_Model.insert key Z hash key_eqb).

(** Nothing is ever deleted. *)
Lemma resize_clean : forall d t rs t',
  tinv0 t rs -> (activeCount t + deletedCount t <= maxActive t)%N -> deletedCount t = 0%N ->
  resize_and_rehash key Z (insert_depth key Z hash key_eqb (S d)) t = Ok t' -> deletedCount t' = 0%N.
Proof.
  intros d t rs t' Hinv Hle Hd H. destruct (N.lt_ge_cases (activeCount t + deletedCount t) (maxActive t)) as [Hlt|Hge].
  - rewrite (resize_noop key Z _ _ Hlt) in H. injection H as <-. exact Hd.
  - unfold resize_and_rehash in H. assert (E : (activeCount t + deletedCount t <? maxActive t)%N = false) by (apply N.ltb_ge; auto).
    rewrite E in H. apply obind_ok in H. destruct H as ([rc ma] & Hsz & H). destruct Hinv as [Hrows Hri Hsize Hact Hdel]. rewrite Hrows in H.
    destruct (sizes_positive _ Hsize) as [Hp1 Hp2]. cbn [fst snd] in Hp1, Hp2.
    assert (Hnew : In (rc, ma) hash_table_sizes /\ (activeCount t < ma)%N).
    { destruct ((rowCount t =? 0) || (deletedCount t <? activeCount t))%N eqn:Eg.
      - unfold next_hash_table_size in Hsz. destruct (next_size_in hash_table_sizes (rowCount t)) as [s|] eqn:En; [|discriminate].
        injection Hsz as ->. destruct (next_size_facts _ _ En) as [Hi Hlt]. split; [exact Hi|]. assert (snd (rowCount t, maxActive t) < snd (rc, ma))%N by (apply sizes_monotone; auto). cbn [fst snd] in *. lia.
      - injection Hsz as <- <-. apply orb_false_iff in Eg. destruct Eg as [_ Eg]. apply N.ltb_ge in Eg. split; [exact Hsize|lia]. }
    destruct Hnew as (Hin & Hroom).
    apply (reinsert_spec key Z hash key_eqb equiv (respects hash) d rs _ (repeat Empty (N.to_nat rc))) in H.
    + destruct H as (rs' & _ & A2 & _). exact A2.
    + constructor; simpl; auto; [apply rows_inv_fresh|now rewrite nactive_repeat|now rewrite ndeleted_repeat].
    + reflexivity.
    + cbn [activeCount maxActive]. rewrite <- Hact. lia.
    + rewrite active_rows_repeat, app_nil_r. eapply enumerate_nodup; eauto using equiv.
Qed.
Lemma insert_clean : forall t k v p t' b, tinv t -> deletedCount t = 0%N -> insert t k v p = Ok (t', b) -> deletedCount t' = 0%N.
Proof.
  assert (A : forall t rs k v p t' b, tinv0 t rs -> load_ok key Z t -> deletedCount t = 0%N -> insert t k v p = Ok (t', b) -> deletedCount t' = 0%N).
  { intros t rs k v p t' b Hi Hl Hd H. unfold HashTable_Model.insert in H.
    destruct (insert_depth_spec key Z hash key_eqb equiv (respects hash) _ _ _ _ _ _ _ _ Hi H) as
      [(k' & v' & Hget & [(_ & -> & _)|(_ & _ & rs' & _ & X & B & C & _)])|(Hget & [(_ & -> & _)|(_ & _ & t2 & rs2 & Hinv2 & Hrc & Hma & Hac & Hdc2 & Hperm & Hres)])]; [exact Hd|congruence|exact Hd|].
    apply (resize_clean 0 t2 rs2) in Hres; [exact Hres|exact Hinv2| |]; unfold load_ok in Hl; destruct Hdc2; lia. }
  intros t k v p t' b [->|rs Hi Hl] Hd H; [|eauto]. unfold HashTable_Model.insert in H. rewrite insert_table_init in H.
  apply (A _ _ _ _ _ _ _ (first_table_inv key Z hash key_eqb)) in H; [exact H|unfold load_ok; cbn; lia|reflexivity].
Qed.

(** A table holding the entries so far. *)
Definition holds (t : enum) (es : list (name * Z)) : Prop :=
  deletedCount t = 0%N /\ exists m, refines t m /\ forall k v, In (k, v) m <-> exists s, k = Some s /\ means es s v.
Lemma holds_init : holds table_init [].
Proof. split; [reflexivity|]. exists []. split; [apply refines_init|]. intros k v. split; [intros []|]. intros (s & _ & [|] & b & E & _); discriminate E. Qed.
Lemma insert_holds : forall t es s v t' b, holds t es -> insert t (Some s) v InsertAlways = Ok (t', b) -> holds t' (es ++ [(s, v)]).
Proof.
  intros t es s v t' b (Hd & m & Hm & Hs) H. split; [exact (insert_clean _ _ _ _ _ _ (proj1 Hm) Hd H)|].
  destruct (insert_refines key Z hash key_eqb equiv (respects hash) _ _ _ _ _ _ _ Hm H) as [Hr _]. cbn [amap_insert] in Hr. exists (amap_set key Z key_eqb m (Some s) v). split; [exact Hr|].
  intros k x. rewrite set_in. split.
  - intros [[-> ->]|[Hn Hi]]; [exists s; split; [reflexivity|apply means_snoc; auto]|]. apply Hs in Hi. destruct Hi as (s' & -> & Hi). exists s'. split; [reflexivity|]. apply means_snoc. right. split; [congruence|exact Hi].
  - intros (s' & -> & Hi). apply means_snoc in Hi. destruct Hi as [[-> ->]|[Hn Hi]]; [auto|]. right. split; [congruence|]. apply Hs. eauto.
Qed.
Lemma add_holds : forall es t pre t', holds t pre -> add_all hash t es = Ok t' -> holds t' (pre ++ es).
Proof.
  intros es. induction es as [|[s v] es IH]; intros t pre t' Ht H; [injection H as <-; now rewrite app_nil_r|].
  cbn [add_all] in H. apply obind_ok in H. destruct H as ([t1 b] & H1 & H). cbn [fst] in H. apply (insert_holds _ _ _ _ _ _ Ht) in H1. specialize (IH _ _ _ H1 H). now rewrite <- app_assoc in IH.
Qed.
Lemma init_holds : forall es t, init64 hash es = Ok t -> holds t es.
Proof. intros es t H. exact (add_holds es _ [] t holds_init H). Qed.

(** The number of rows in use. *)
Lemma holds_count : forall t es, holds t es -> activeCount t = N.of_nat (names es).
Proof.
  intros t es (_ & m & Hm & Hs). pose proof (count_refines key Z hash key_eqb t m Hm) as Hc. unfold count, amap_count in Hc. rewrite Hc. f_equal. unfold names.
  assert (Hnd : NoDup (map fst m)).
  { pose proof (refines_nodup key Z hash key_eqb equiv t m Hm) as X. clear - X. induction X as [|e m Hf _ IH]; cbn [map]; constructor; [|exact IH].
    intros Hi. apply in_map_iff in Hi. destruct Hi as (e' & E & He). rewrite Forall_forall in Hf. specialize (Hf e' He). rewrite E, key_eqb_refl in Hf. discriminate. }
  rewrite <- (map_length fst m). set (d := nodup (list_eq_dec N.eq_dec) (map fst es)). rewrite <- (map_length Some d).
  assert (Hd : NoDup (map Some d)). { apply FinFun.Injective_map_NoDup; [intros x y; congruence|]. apply NoDup_nodup. }
  assert (I : forall k, In k (map fst m) <-> In k (map Some d)).
  { intros k. rewrite in_map_iff, in_map_iff. split.
    - intros ([k' v] & <- & Hi). apply Hs in Hi. cbn [fst]. destruct Hi as (s & -> & Hi). exists s. split; [reflexivity|]. apply nodup_In. apply means_some. eauto.
    - intros (s & <- & Hi). apply nodup_In, means_some in Hi. destruct Hi as (v & Hi). exists (Some s, v). split; [reflexivity|]. apply Hs. eauto. }
  apply Nat.le_antisymm; apply NoDup_incl_length; try assumption; intros k Hk; now apply I.
Qed.

(** Reading. *)
Lemma lookup_means : forall t es s r, holds t es -> lookup key Z hash key_eqb t (Some s) = Ok r -> forall v, (exists k, r = Some (k, v)) <-> means es s v.
Proof.
  intros t es s r (_ & m & Hm & Hs) H v. apply (lookup_refines key Z hash key_eqb equiv (respects hash) t m _ _ Hm) in H. subst r.
  pose proof (refines_nodup key Z hash key_eqb equiv t m Hm) as Hn. split.
  - intros (k & E). pose proof (get_key Z m _ _ _ Hn E) as ->. apply (get_in Z m (Some s) v Hn) in E. apply Hs in E. destruct E as (s' & E & X). injection E as <-. exact X.
  - intros X. exists (Some s). apply (get_in Z m (Some s) v Hn). apply Hs. eauto.
Qed.
Lemma from_means : forall t es s v, holds t es -> from_string64 hash (Some t) (Some s) = Ok v -> means es s v \/ (~ In s (map fst es) /\ v = 0%Z).
Proof.
  intros t es s v Ht H. cbn [from_string64] in H. apply obind_ok in H. destruct H as (r & H & E). pose proof (lookup_means t es s r Ht H) as L. injection E as <-. destruct r as [[k v]|].
  - left. apply L. eauto.
  - right. split; [|reflexivity]. intros Hi. apply means_some in Hi. destruct Hi as (v & Hi). apply L in Hi. destruct Hi as (k & Hi). discriminate Hi.
Qed.
Lemma from_null : forall t es v, holds t es -> from_string64 hash (Some t) None = Ok v -> v = 0%Z.
Proof.
  intros t es v (_ & m & Hm & Hs) H. cbn [from_string64] in H. apply obind_ok in H. destruct H as (r & H & E). apply (lookup_refines key Z hash key_eqb equiv (respects hash) t m _ _ Hm) in H. injection E as <-. subst r.
  destruct (amap_get key Z key_eqb m None) as [[k x]|] eqn:G; [|reflexivity]. pose proof (refines_nodup key Z hash key_eqb equiv t m Hm) as Hn. pose proof (get_key Z m _ _ _ Hn G) as ->. apply (get_in Z m None x Hn) in G. apply Hs in G. destruct G as (s & G & _). discriminate G.
Qed.
Lemma scan_in : forall rs v, (forall k, In k (map fst (active_rows rs)) -> k <> None) -> match scan rs v with Some s => In (Some s, v) (active_rows rs) | None => forall k, ~ In (k, v) (active_rows rs) end.
Proof.
  intros rs v. induction rs as [|r rs IH]; intros Hk; [intros k []|]. destruct r as [| |k x]; cbn [scan active_rows]; [exact (IH Hk)|exact (IH Hk)|]. destruct (x =? v)%Z eqn:E.
  - apply Z.eqb_eq in E. subst x. destruct k as [s|]; [now left|]. destruct (Hk None); [now left|reflexivity].
  - apply Z.eqb_neq in E. assert (Hk' : forall k, In k (map fst (active_rows rs)) -> k <> None) by (intros k0 H0; apply Hk; now right). specialize (IH Hk'). destruct (scan rs v); [now right|]. intros k0 [H|H]; [congruence|exact (IH k0 H)].
Qed.
Lemma string_means : forall t es v, holds t es -> match string_from (Some t) v with Some s => means es s v | None => forall s, ~ means es s v end.
Proof.
  intros t es v (_ & m & [_ Hp] & Hs). cbn [string_from]. unfold enumerate in Hp. destruct (rows t) as [rs|].
  - assert (I : forall k x, In (k, x) (active_rows rs) <-> exists s, k = Some s /\ means es s x).
    { intros k x. rewrite <- Hs. split; intros X; [eapply Permutation_in; [exact Hp|exact X]|eapply Permutation_in; [apply Permutation_sym; exact Hp|exact X]]. }
    pose proof (scan_in rs v) as S1. destruct (scan rs v) as [s|].
    + assert (X : In (Some s, v) (active_rows rs)). { apply S1. intros k Hk. apply in_map_iff in Hk. destruct Hk as ([k' x] & <- & Hk). apply I in Hk. destruct Hk as (s' & -> & _). discriminate. }
      apply I in X. destruct X as (s' & E & X). injection E as <-. exact X.
    + intros s X. apply (S1 ltac:(intros k Hk; apply in_map_iff in Hk; destruct Hk as ([k' x] & <- & Hk); apply I in Hk; destruct Hk as (s' & -> & _); discriminate) (Some s)). apply I. eauto.
  - apply Permutation_nil in Hp. subst m. intros s X. apply (Hs (Some s) v). eauto.
Qed.

(** When reading is safe. *)
Lemma lookup_safe : forall t es k, holds t es -> names es <> 11%nat -> exists r, lookup key Z hash key_eqb t k = Ok r.
Proof.
  intros t es k Ht Hn. pose proof (holds_count t es Ht) as Hc. destruct Ht as (Hd & m & [Hi _] & _).
  destruct (step_ok key Z hash key_eqb equiv (respects hash) t (OpGet k) Hi) as [(r & X)|(X & _)]; [lia| |]; cbn [step] in X.
  - apply obind_ok in X. destruct X as (r' & X & _). eauto.
  - exfalso. unfold lookup in X. destruct (0 <? activeCount t)%N; [|discriminate X]. destruct (rows t) as [rs|]; [|discriminate X].
    destruct (find key Z hash key_eqb rs (rowCount t) k) as [[x st]| | |] eqn:E; try discriminate X; [|exact (find_not_fatal key Z hash key_eqb rs (rowCount t) k E)]. destruct st; cbn in X; try discriminate X. destruct (row_at key Z rs x) as [[]|]; discriminate X.
Qed.
Lemma from_safe : forall t es k, holds t es -> names es <> 11%nat -> exists v, from_string64 hash (Some t) k = Ok v.
Proof. intros t es k Ht Hn. cbn [from_string64]. destruct (lookup_safe t es k Ht Hn) as (r & ->). cbn [obind]. eauto. Qed.
Lemma names_app : forall a b, (names a <= names (a ++ b))%nat.
Proof.
  intros a b. unfold names. apply NoDup_incl_length; [apply NoDup_nodup|]. intros s Hs. apply nodup_In. apply nodup_In in Hs. rewrite map_app. apply in_or_app. now left.
Qed.
Lemma names_length : forall a, (names a <= length a)%nat.
Proof. intros a. unfold names. rewrite <- (map_length fst a). apply NoDup_incl_length; [apply NoDup_nodup|]. intros s Hs. now apply nodup_In in Hs. Qed.
Lemma insert_fatal : forall t rs k v p, tinv0 t rs -> deletedCount t = 0%N -> insert t k v p = Fatal -> (maxActive t <= activeCount t + 1)%N.
Proof.
  intros t rs k v p Hi Hd H. destruct (N.le_gt_cases (maxActive t) (activeCount t + 1)) as [L|L]; [exact L|]. exfalso.
  unfold HashTable_Model.insert in H. cbn [insert_depth] in H. rewrite (ti_rows _ _ _ _ _ _ Hi) in H. cbn [obind] in H. rewrite (ti_rows _ _ _ _ _ _ Hi) in H.
  destruct (find key Z hash key_eqb rs (rowCount t) k) as [[x st]| | |] eqn:E; try discriminate H; [|exact (find_not_fatal key Z hash key_eqb _ _ _ E)]. cbn [obind] in H.
  destruct (row_at key Z rs x) as [r|]; [|discriminate H]. unfold resize_and_rehash in H. cbn [activeCount deletedCount maxActive] in H. rewrite Hd in H.
  assert (A : forall d, (d = 0)%N -> (activeCount t + 1 + d <? maxActive t)%N = true) by (intros d ->; apply N.ltb_lt; lia).
  destruct st; destruct p; try discriminate H; rewrite A in H by reflexivity; discriminate H.
Qed.
Lemma add_total : forall es t pre, holds t pre -> (exists t', add_all hash t es = Ok t') \/ (add_all hash t es = Fatal /\ 837682430 <= N.of_nat (names (pre ++ es)))%N \/ (add_all hash t es = UB /\ exists a b, es = a ++ b /\ b <> [] /\ names (pre ++ a) = 11%nat).
Proof.
  intros es. induction es as [|[s v] es IH]; intros t pre Ht; [left; eexists; reflexivity|]. cbn [add_all].
  pose proof (holds_count t pre Ht) as Hc. assert (Ht' := Ht). destruct Ht' as (Hd & m & [Hi _] & _).
  destruct (step_total key Z hash key_eqb equiv (respects hash) t (OpSet (Some s) v) Hi) as [(r & X)|[(X & Y)|(X & Y)]]; cbn [step] in X.
  - apply obind_ok in X. destruct X as ([t1 b] & X & _). rewrite X. cbn [obind fst]. apply (insert_holds _ _ _ _ _ _ Ht) in X. specialize (IH t1 _ X). rewrite <- app_assoc in IH. cbn [app] in IH. destruct IH as [IH|[IH|(U & a & b' & E & Hb & F)]]; [auto|auto|].
    right. right. split; [exact U|]. exists ((s, v) :: a), b'. rewrite <- app_assoc in F. cbn [app] in F. subst es. auto.
  - right. left. destruct (insert t (Some s) v InsertAlways) eqn:E; try discriminate X. cbn [obind]. split; [reflexivity|]. destruct Hi as [->|rs Hinv Hl]; [unfold max_row_count in Y; cbn in Y; lia|].
    pose proof (insert_fatal t rs _ _ _ Hinv Hd E) as F. pose proof (sizes_half _ (ti_size _ _ _ _ _ _ Hinv)) as G. cbn [fst snd] in G. unfold max_row_count in Y. pose proof (names_app pre ((s, v) :: es)). lia.
  - right. right. destruct (insert t (Some s) v InsertAlways) eqn:E; try discriminate X. cbn [obind]. split; [reflexivity|]. exists [], ((s, v) :: es). split; [reflexivity|]. split; [discriminate|]. rewrite app_nil_r. lia.
Qed.
End Enum.

(** ** Names of operators *)
Definition added (m : list (key * Predicate_Model.op)) (es : list (name * Predicate_Model.op)) : list (key * Predicate_Model.op) :=
  fold_left (fun m e => amap_add key Predicate_Model.op key_eqb m (Some (fst e)) (snd e)) es m.
Lemma add_names_refines : forall es t m t', HashTable_Proofs.refines key Predicate_Model.op real_hash key_eqb t m -> add_names t es = Ok t' -> HashTable_Proofs.refines key Predicate_Model.op real_hash key_eqb t' (added m es).
Proof.
  intros es. induction es as [|[s o] es IH]; intros t m t' Hm H; [injection H as <-; exact Hm|]. cbn [add_names] in H. apply obind_ok in H. destruct H as ([t1 b] & H1 & H). cbn [fst] in H.
  destruct (insert_refines key _ real_hash key_eqb equiv (respects real_hash) _ _ _ _ _ _ _ Hm H1) as [Hr _]. cbn [amap_insert] in Hr. exact (IH _ _ _ Hr H).
Qed.
Definition all_names : list (name * Predicate_Model.op) := map (fun r => (snd r, fst r)) op_info ++ aliases.
Lemma op_table_ok : match op_table with Ok t => (rowCount t =? 127)%N | _ => false end = true.
Proof. vm_compute. reflexivity. Qed.
Lemma op_table_refines : exists t, op_table = Ok t /\ rowCount t = 127%N /\ HashTable_Proofs.refines key Predicate_Model.op real_hash key_eqb t (added [] all_names).
Proof.
  pose proof op_table_ok as H. destruct op_table as [t| | |] eqn:E; try discriminate H. exists t. split; [reflexivity|]. split; [now apply N.eqb_eq|]. apply (add_names_refines all_names table_init []); [apply refines_init|exact E].
Qed.
Lemma added_names : added [] all_names = rev (map (fun e => (Some (fst e), snd e)) all_names).
Proof. vm_compute. reflexivity. Qed.
Lemma op_get : forall k, op_from_string k = Ok (match amap_get key Predicate_Model.op key_eqb (added [] all_names) k with Some (_, o) => o | None => Predicate_Model.Unspecified end).
Proof.
  intros k. destruct op_table_refines as (t & E & Hr & Hm). unfold op_from_string. rewrite E. cbn [obind].
  destruct (lookup key Predicate_Model.op real_hash key_eqb t k) as [r| | |] eqn:L.
  - cbn [obind]. now rewrite (lookup_refines key _ real_hash key_eqb equiv (respects real_hash) _ _ _ _ Hm L).
  - exfalso. destruct (step_ok key _ real_hash key_eqb equiv (respects real_hash) t (OpGet k) (proj1 Hm)) as [(r & X)|(_ & X)]; [rewrite Hr; intros [Y _]; discriminate Y| |unfold max_row_count in X; rewrite Hr in X; now apply N.le_ngt in X; destruct X].
    cbn [step] in X. rewrite L in X. discriminate X.
  - exfalso. destruct (step_ok key _ real_hash key_eqb equiv (respects real_hash) t (OpGet k) (proj1 Hm)) as [(r & X)|(_ & X)]; [rewrite Hr; intros [Y _]; discriminate Y| |unfold max_row_count in X; rewrite Hr in X; now apply N.le_ngt in X; destruct X].
    cbn [step] in X. rewrite L in X. discriminate X.
  - exfalso. destruct (step_ok key _ real_hash key_eqb equiv (respects real_hash) t (OpGet k) (proj1 Hm)) as [(r & X)|(_ & X)]; [rewrite Hr; intros [Y _]; discriminate Y| |unfold max_row_count in X; rewrite Hr in X; now apply N.le_ngt in X; destruct X].
    cbn [step] in X. rewrite L in X. discriminate X.
Qed.
Lemma op_written : forall o s, written o s -> op_from_string (Some s) = Ok o.
Proof.
  intros o s H. rewrite op_get. f_equal.
  assert (A : forall x, In x (word o :: symbols o) -> match amap_get key Predicate_Model.op key_eqb (added [] all_names) (Some (bytes x)) with Some (_, o) => o | None => Predicate_Model.Unspecified end = o).
  { destruct o; cbn [word symbols In]; intros x Hx; repeat (destruct Hx as [<-|Hx]; [vm_compute; reflexivity|]); destruct Hx. }
  destruct H as [->|(x & Hx & ->)]; apply A; cbn [In]; auto.
Qed.
Lemma names_written : forall s o, In (Some s, o) (added [] all_names) -> written o s.
Proof.
  intros s o H. rewrite added_names in H. apply in_rev in H. cbn [all_names op_info aliases map app fst snd In] in H.
  repeat (destruct H as [H|H]; [injection H as <- <-; solve [left; vm_compute; reflexivity | right; eexists; split; [left; reflexivity|vm_compute; reflexivity] | right; eexists; split; [right; left; reflexivity|vm_compute; reflexivity]]|]). destruct H.
Qed.
Lemma added_nodup : amap_nodup key Predicate_Model.op key_eqb (added [] all_names).
Proof. destruct op_table_refines as (t & _ & _ & Hm). exact (refines_nodup key _ real_hash key_eqb equiv t _ Hm). Qed.
Lemma op_from : forall s, exists o, op_from_string (Some s) = Ok o /\ (written o s \/ (o = Predicate_Model.Unspecified /\ forall o', ~ written o' s)).
Proof.
  intros s. rewrite op_get. eexists. split; [reflexivity|]. destruct (amap_get key Predicate_Model.op key_eqb (added [] all_names) (Some s)) as [[k o]|] eqn:E.
  - left. apply names_written. pose proof (get_key _ _ _ _ _ added_nodup E) as ->. now apply (get_in _ _ (Some s) o added_nodup).
  - right. split; [reflexivity|]. intros o' H.
    assert (A : forall x, In x (word o' :: symbols o') -> amap_get key Predicate_Model.op key_eqb (added [] all_names) (Some (bytes x)) <> None).
    { destruct o'; cbn [word symbols In]; intros x Hx; repeat (destruct Hx as [<-|Hx]; [vm_compute; discriminate|]); destruct Hx. }
    destruct H as [->|(x & Hx & ->)]; (eapply A; [|exact E]); cbn [In]; auto.
Qed.
Lemma op_null : op_from_string None = Ok Predicate_Model.Unspecified.
Proof. rewrite op_get. rewrite added_names. vm_compute. reflexivity. Qed.
Lemma op_word : forall o, string_from_op o = Some (bytes (word o)).
Proof. intros []; vm_compute; reflexivity. Qed.

(** ** Cases *)
(** Eleven names with one letter. *)
Definition eleven : list (name * Z) := map (fun n => ([n], Z.of_N n)) [66; 69; 71; 74; 75; 76; 79; 81; 84; 86; 89]%N.
Lemma eleven_refuted : names eleven = 11%nat /\ (exists t, init real_hash eleven = Ok t /\ from_string real_hash (Some t) (Some [100%N]) = UB) /\ init real_hash (eleven ++ [([100%N], 1%Z)]) = UB.
Proof. split; [vm_compute; reflexivity|]. split; [exists (match init real_hash eleven with Ok t => t | _ => table_init end); split; vm_compute; reflexivity|vm_compute; reflexivity]. Qed.

Lemma as_int_id : forall v, (- 2 ^ 31 <= v < 2 ^ 31)%Z -> as_int v = v.
Proof. intros v H. unfold as_int. rewrite Z.mod_small; lia. Qed.
Lemma init_ints : forall hash es, ints es -> init hash es = init64 hash es.
Proof.
  intros hash es H. unfold init. f_equal. induction es as [|[s v] es IH]; [reflexivity|]. cbn [map fst snd]. rewrite as_int_id by (apply (H s); now left). f_equal. apply IH. intros s' v' Hi. apply (H s'). now right.
Qed.
Lemma means_in : forall es s v, means es s v -> In (s, v) es.
Proof. intros es s v (a & b & -> & _). apply in_or_app. right. now left. Qed.

(** The statements. *)
Theorem enum_values : forall hash es t, init64 hash es = Ok t ->
  (forall s v, from_string64 hash (Some t) (Some s) = Ok v -> means es s v \/ (~ In s (map fst es) /\ v = 0%Z)) /\
  (forall v, from_string64 hash (Some t) None = Ok v -> v = 0%Z) /\
  (forall v s, string_from (Some t) v = Some s -> means es s v) /\
  (forall v, string_from (Some t) v = None -> forall s, ~ means es s v).
Proof.
  intros hash es t H. apply init_holds in H. split; [intros s v; now apply from_means|]. split; [intros v; now apply (from_null hash t es)|].
  split; [intros v s E|intros v E]; pose proof (string_means hash t es v H) as X; rewrite E in X; exact X.
Qed.
Theorem enum_ints : forall hash es t, ints es -> init hash es = Ok t ->
  init64 hash es = Ok t /\ (forall s v, from_string64 hash (Some t) (Some s) = Ok v -> from_string hash (Some t) (Some s) = Ok v).
Proof.
  intros hash es t Hi H. rewrite init_ints in H by exact Hi. split; [exact H|]. intros s v E. unfold from_string. rewrite E. cbn [obind]. f_equal. apply as_int_id.
  destruct (from_means hash t es s v (init_holds hash es t H) E) as [X|[_ ->]]; [exact (Hi s v (means_in es s v X))|lia].
Qed.
Theorem enum_round : forall hash es t, init64 hash es = Ok t ->
  (forall v s, string_from (Some t) v = Some s -> forall v', from_string64 hash (Some t) (Some s) = Ok v' -> v' = v) /\
  (forall s v, In s (map fst es) -> from_string64 hash (Some t) (Some s) = Ok v -> exists s', string_from (Some t) v = Some s' /\ means es s' v).
Proof.
  intros hash es t H. destruct (enum_values hash es t H) as (A & _ & B & C). split.
  - intros v s E v' E'. pose proof (B v s E) as M. destruct (A s v' E') as [M'|[N _]]; [exact (means_fun es s v' v M' M)|]. destruct N. apply means_some. eauto.
  - intros s v Hs E. destruct (A s v E) as [M|[N _]]; [|contradiction]. destruct (string_from (Some t) v) as [s'|] eqn:F; [exists s'; split; [reflexivity|now apply B]|]. exfalso. exact (C v F s M).
Qed.
Theorem enum_safe : forall hash es,
  (init64 hash es <> NoFuel) /\
  (init64 hash es = Fatal -> (837682430 <= N.of_nat (names es))%N) /\
  (init64 hash es = UB -> exists a b, es = a ++ b /\ b <> [] /\ names a = 11%nat) /\
  (forall t s, init64 hash es = Ok t -> names es <> 11%nat -> exists v, from_string64 hash (Some t) s = Ok v).
Proof.
  intros hash es. unfold init64. destruct (add_total hash es table_init [] (holds_init hash)) as [(t & E)|[(E & F)|(E & F)]]; rewrite E; repeat (split; try discriminate); try (intros _; exact F).
  intros t' s X Hn. injection X as <-. apply (from_safe hash t es); [|exact Hn]. exact (init_holds hash es t E).
Qed.
