(** Proofs about linked lists. *)
Require Import Coq.ZArith.ZArith Coq.Lists.List Coq.Bool.Bool Coq.Arith.Arith Coq.micromega.Lia.
Require Import Coq.Sorting.Permutation Coq.Sorting.Sorted.
Require Import Verif.Base Verif.Array_Model Verif.Array_Spec Verif.Array_Proofs Verif.Sort_Model Verif.Sort_Spec Verif.Sort_Proofs.
Require Import Verif.LinkedList_Model Verif.LinkedList_Spec.
Import ListNotations.
Local Open Scope nat_scope.


Section Proofs.
  Variable A : Type.
  Variable oid : A -> A -> bool.
  Variable P : Type.
  Variable gt : P -> P -> bool.
  Variable pzero : P.

  Notation node := (node A P).
  Notation llist := (llist A P).
  Notation entry := (entry A P).
  Notation heap_t := (addr -> option node).
  Notation heap := (heap A P).
  Notation pool := (pool A P).
  Notation fresh := (fresh A P).
  Notation lfirst := (lfirst A P).
  Notation llast := (llast A P).
  Notation lcount := (lcount A P).
  Notation cnode := (cnode A P).
  Notation cindex := (cindex A P).
  Notation load := (load A P).
  Notation store := (store A P).
  Notation put := (put A P).

  (** ** Doubly linked segments *)
  Definition hdo (d : option addr) (ns : list addr) : option addr :=
    match ns with [] => d | a :: _ => Some a end.
  Fixpoint lasto (d : option addr) (ns : list addr) : option addr :=
    match ns with [] => d | a :: r => lasto (Some a) r end.

  Fixpoint dll (h : heap_t) (p : option addr) (ns : list addr) (vs : list entry) (n : option addr) : Prop :=
    match ns, vs with
    | [], [] => True
    | a :: ns', v :: vs' => h a = Some (mkNode A P p (hdo n ns') (fst v) (snd v)) /\ dll h (Some a) ns' vs' n
    | _, _ => False
    end.

  Lemma dll_length : forall ns h p vs n, dll h p ns vs n -> length ns = length vs.
  Proof. induction ns; destruct vs; simpl; intros; try tauto. destruct H. f_equal. eauto. Qed.

  Lemma hdo_app : forall d ns1 ns2, hdo d (ns1 ++ ns2) = hdo (hdo d ns2) ns1.
  Proof. destruct ns1; auto. Qed.
  Lemma lasto_app : forall ns1 d ns2, lasto d (ns1 ++ ns2) = lasto (lasto d ns1) ns2.
  Proof. induction ns1; simpl; auto. Qed.
  Lemma lasto_in : forall ns d b, lasto d ns = Some b -> ns = [] /\ d = Some b \/ In b ns.
  Proof.
    induction ns; simpl; intros; auto. right. destruct (IHns _ _ H) as [[-> E]|]; [|auto]. left. congruence.
  Qed.
  Lemma lasto_nonempty : forall ns d d', ns <> [] -> lasto d ns = lasto d' ns.
  Proof. destruct ns; simpl; congruence. Qed.

  Lemma dll_app : forall ns1 vs1 ns2 vs2 h p n, length ns1 = length vs1 ->
    (dll h p (ns1 ++ ns2) (vs1 ++ vs2) n <-> dll h p ns1 vs1 (hdo n ns2) /\ dll h (lasto p ns1) ns2 vs2 n).
  Proof.
    induction ns1; destruct vs1; cbn [length]; intros; try discriminate.
    - simpl. tauto.
    - cbn [app dll lasto]. rewrite IHns1 by lia. rewrite hdo_app. tauto.
  Qed.

  Lemma dll_frame : forall ns vs h h' p n, dll h p ns vs n -> (forall b, In b ns -> h' b = h b) -> dll h' p ns vs n.
  Proof.
    induction ns; destruct vs; simpl; intros; auto. destruct H. split; [rewrite H0; auto|]. eapply IHns; eauto.
  Qed.

  Lemma dll_in : forall ns vs h p n b, dll h p ns vs n -> In b ns -> exists nd, h b = Some nd.
  Proof.
    induction ns; destruct vs; simpl; intros; try tauto. destruct H. destruct H0 as [<-|]; eauto.
  Qed.

  (** Changing the next pointer of the last node. *)
  Lemma dll_set_next : forall ns vs h h' p n n', dll h p ns vs n -> NoDup ns ->
    (forall b, In b ns -> lasto None ns <> Some b -> h' b = h b) ->
    (forall b nd, lasto None ns = Some b -> h b = Some nd -> h' b = Some (set_next A P n' nd)) ->
    dll h' p ns vs n'.
  Proof.
    induction ns as [|a ns IH]; destruct vs as [|v vs]; cbn [dll]; intros h h' p n n' H Hnd Hf Hl; auto.
    destruct H as [Ha H]. inversion Hnd as [|? ? Hni Hnd']; subst. destruct ns as [|b ns].
    - destruct vs; [|destruct H]. cbn [lasto] in Hl. rewrite (Hl a _ eq_refl Ha). split; [reflexivity|exact I].
    - assert (Hl' : lasto None (a :: b :: ns) = lasto None (b :: ns)) by reflexivity. rewrite Hl' in Hf, Hl. split.
      + rewrite Hf; [exact Ha|left; auto|]. intros E. destruct (lasto_in _ _ _ E) as [[? _]|Hi]; [discriminate|]. auto.
      + eapply IH; eauto. intros c Hc Hne. apply Hf; [right; auto|auto].
  Qed.

  (** Changing the previous pointer of the first node. *)
  Lemma dll_set_prev : forall ns vs h h' p p' n, dll h p ns vs n -> NoDup ns ->
    (forall b, In b ns -> hdo None ns <> Some b -> h' b = h b) ->
    (forall b nd, hdo None ns = Some b -> h b = Some nd -> h' b = Some (set_prev A P p' nd)) ->
    dll h' p' ns vs n.
  Proof.
    destruct ns as [|a ns]; destruct vs as [|v vs]; cbn [dll hdo]; intros h h' p p' n H Hnd Hf Hl; auto.
    destruct H as [Ha H]. inversion Hnd as [|? ? Hni Hnd']; subst. split.
    - rewrite (Hl a _ eq_refl Ha). auto.
    - eapply dll_frame; eauto. intros b Hb. apply Hf; [right; auto|]. intros E. inversion E; subst. auto.
  Qed.

  Lemma dll_insert : forall ns1 ns2 vs1 vs2 h h' a v,
    dll h None (ns1 ++ ns2) (vs1 ++ vs2) None -> length ns1 = length vs1 -> NoDup (ns1 ++ ns2) -> ~ In a (ns1 ++ ns2) ->
    h' a = Some (mkNode A P (lasto None ns1) (hdo None ns2) (fst v) (snd v)) ->
    (forall b, In b (ns1 ++ ns2) -> lasto None ns1 <> Some b -> hdo None ns2 <> Some b -> h' b = h b) ->
    (forall b nd, lasto None ns1 = Some b -> h b = Some nd -> h' b = Some (set_next A P (Some a) nd)) ->
    (forall b nd, hdo None ns2 = Some b -> h b = Some nd -> h' b = Some (set_prev A P (Some a) nd)) ->
    dll h' None (ns1 ++ a :: ns2) (vs1 ++ v :: vs2) None.
  Proof.
    intros ns1 ns2 vs1 vs2 h h' a v H Hlen Hnd Hna Ha Hf Hl Hp.
    apply dll_app in H; auto. destruct H as [H1 H2]. apply dll_app; auto.
    assert (Hd : NoDup ns1 /\ NoDup ns2 /\ forall b, In b ns1 -> ~ In b ns2).
    { clear - Hnd. induction ns1; cbn [app] in Hnd; [repeat split; auto; constructor|].
      inversion Hnd; subst. destruct (IHns1 H2) as (X1 & X2 & X3). rewrite in_app_iff in H1.
      repeat split; auto; [constructor; tauto|]. intros b [<-|Hb]; auto. }
    destruct Hd as (N1 & N2 & N3).
    assert (Hh : forall b, hdo None ns2 = Some b -> In b ns2) by (destruct ns2; cbn; intros b E; inversion E; auto).
    assert (Hla : forall b, lasto None ns1 = Some b -> In b ns1).
    { intros b E. destruct (lasto_in _ _ _ E) as [[_ ?]|]; auto. discriminate. }
    split; [|cbn [dll hdo]; split; auto].
    - cbn [hdo]. eapply dll_set_next; eauto.
      intros b Hb Hne. apply Hf; [apply in_or_app; auto|auto|]. intros E. apply Hh in E. eapply N3; eauto.
    - eapply dll_set_prev; eauto.
      intros b Hb Hne. apply Hf; [apply in_or_app; auto| |auto]. intros E. apply Hla in E. eapply N3; eauto.
  Qed.

  Lemma dll_remove : forall ns1 ns2 vs1 vs2 h h' a v,
    dll h None (ns1 ++ a :: ns2) (vs1 ++ v :: vs2) None -> length ns1 = length vs1 -> NoDup (ns1 ++ a :: ns2) ->
    (forall b, In b (ns1 ++ ns2) -> lasto None ns1 <> Some b -> hdo None ns2 <> Some b -> h' b = h b) ->
    (forall b nd, lasto None ns1 = Some b -> h b = Some nd -> h' b = Some (set_next A P (hdo None ns2) nd)) ->
    (forall b nd, hdo None ns2 = Some b -> h b = Some nd -> h' b = Some (set_prev A P (lasto None ns1) nd)) ->
    dll h' None (ns1 ++ ns2) (vs1 ++ vs2) None.
  Proof.
    intros ns1 ns2 vs1 vs2 h h' a v H Hlen Hnd Hf Hl Hp.
    apply dll_app in H; auto. destruct H as [H1 [_ H2]]. apply dll_app; auto.
    apply NoDup_remove_1 in Hnd.
    assert (Hd : NoDup ns1 /\ NoDup ns2 /\ forall b, In b ns1 -> ~ In b ns2).
    { clear - Hnd. induction ns1; cbn [app] in Hnd; [repeat split; auto; constructor|].
      inversion Hnd; subst. destruct (IHns1 H2) as (X1 & X2 & X3). rewrite in_app_iff in H1.
      repeat split; auto; [constructor; tauto|]. intros b [<-|Hb]; auto. }
    destruct Hd as (N1 & N2 & N3).
    assert (Hh : forall b, hdo None ns2 = Some b -> In b ns2) by (destruct ns2; cbn; intros b E; inversion E; auto).
    assert (Hla : forall b, lasto None ns1 = Some b -> In b ns1).
    { intros b E. destruct (lasto_in _ _ _ E) as [[_ ?]|]; auto. discriminate. }
    split.
    - eapply dll_set_next; eauto.
      intros b Hb Hne. apply Hf; [apply in_or_app; auto|auto|]. intros E. apply Hh in E. eapply N3; eauto.
    - eapply dll_set_prev; eauto.
      intros b Hb Hne. apply Hf; [apply in_or_app; auto| |auto]. intros E. apply Hla in E. eapply N3; eauto.
  Qed.

  Lemma dll_nth : forall ns vs h p i a, dll h p ns vs None -> nth_error ns i = Some a ->
    exists v, nth_error vs i = Some v /\
      h a = Some (mkNode A P (match i with O => p | S j => nth_error ns j end) (nth_error ns (S i)) (fst v) (snd v)).
  Proof.
    induction ns as [|b ns IH]; destruct vs as [|v vs]; cbn [dll]; intros h p i a H Hi; try tauto; [destruct i; discriminate|].
    destruct H as [Ha H]. destruct i.
    - cbn in Hi. inversion Hi; subst. exists v. split; [auto|]. rewrite Ha. destruct ns; auto.
    - cbn [nth_error] in Hi. destruct (IH vs h (Some b) i a H Hi) as (w & E1 & E2). exists w. split; auto.
      rewrite E2. destruct i; auto.
  Qed.

  Lemma lasto_nth : forall ns, lasto None ns = nth_error ns (length ns - 1).
  Proof.
    destruct ns as [|a ns]; auto. cbn [lasto length]. rewrite Nat.sub_succ, Nat.sub_0_r.
    revert a. induction ns as [|b ns IH]; intros; auto. cbn [lasto length nth_error]. apply IH.
  Qed.
  Lemma hdo_nth : forall ns, hdo None ns = nth_error ns 0.
  Proof. destruct ns; auto. Qed.

  (** ** The representation invariant *)

  (** Everything but the cursor. *)
  Record lrep0 (s : llist) (ns : list addr) (vs : list entry) : Prop := {
    r_nodup : NoDup ns;
    r_dll : dll (heap s) None ns vs None;
    r_first : lfirst s = hdo None ns;
    r_last : llast s = lasto None ns;
    r_count : lcount s = length ns;
    r_pool : NoDup (pool s) /\ (forall a, In a (pool s) -> heap s a = None /\ a < fresh s);
    r_fresh : forall a, fresh s <= a -> heap s a = None
  }.
  (** The cursor is on the node at its index. *)
  Definition cur_ok (s : llist) (ns : list addr) : Prop :=
    cnode s = nth_error ns (cindex s) /\ (ns = [] -> cindex s = 0) /\ (ns <> [] -> cindex s < length ns).
  Definition lrep (s : llist) (ns : list addr) (vs : list entry) : Prop := lrep0 s ns vs /\ cur_ok s ns.

  Lemma lrep_len : forall s ns vs, lrep0 s ns vs -> lcount s = length vs /\ length ns = length vs.
  Proof. intros s ns vs H. assert (E := dll_length _ _ _ _ _ (r_dll _ _ _ H)). rewrite (r_count _ _ _ H). auto. Qed.

  Lemma lrep_init : lrep (llist_init A P) [] [].
  Proof.
    split.
    - constructor; cbn; auto.
      + constructor.
      + split; [constructor|intros a []].
    - split; auto. split; auto. congruence.
  Qed.

  Lemma lrep0_cursor : forall s ns vs c i, lrep0 s ns vs -> lrep0 (with_cursor A P s c i) ns vs.
  Proof. intros s ns vs c i H. destruct H. constructor; cbn; auto. Qed.

  Lemma lrep_cursor : forall s ns vs i, lrep0 s ns vs -> i < length ns -> lrep (with_cursor A P s (nth_error ns i) i) ns vs.
  Proof.
    intros s ns vs i H Hi. split; [apply lrep0_cursor; auto|]. split; auto. split; auto. intros ->. simpl in Hi. lia.
  Qed.

  Lemma walk_next_ok : forall k ns vs h i, dll h None ns vs None -> i + k < length ns ->
    walk_next A P h k (nth_error ns i) = Ok (nth_error ns (i + k)).
  Proof.
    induction k; intros ns vs h i H Hi; cbn [walk_next]; [rewrite Nat.add_0_r; auto|].
    destruct (nth_error ns i) as [a|] eqn:E; [|apply nth_error_None in E; lia].
    destruct (dll_nth _ _ _ _ _ _ H E) as (v & _ & Ev). cbn [LinkedList_Model.load]. rewrite Ev. cbn [obind nnext].
    rewrite (IHk ns vs h (S i) H) by lia. do 2 f_equal. lia.
  Qed.

  Lemma walk_prev_ok : forall k ns vs h i, dll h None ns vs None -> i < length ns -> k <= i ->
    walk_prev A P h k (nth_error ns i) = Ok (nth_error ns (i - k)).
  Proof.
    induction k; intros ns vs h i H Hi Hk; cbn [walk_prev]; [rewrite Nat.sub_0_r; auto|].
    destruct (nth_error ns i) as [a|] eqn:E; [|apply nth_error_None in E; lia].
    destruct (dll_nth _ _ _ _ _ _ H E) as (v & _ & Ev). cbn [LinkedList_Model.load]. rewrite Ev. cbn [obind nprev].
    destruct i; [lia|]. rewrite (IHk ns vs h i H) by lia. do 2 f_equal.
  Qed.

  Lemma move_cursor_ok : forall s ns vs i, lrep s ns vs -> i < length ns ->
    move_cursor A P s i = Ok (with_cursor A P s (nth_error ns i) i).
  Proof.
    intros s ns vs i [H Hc] Hi. unfold move_cursor.
    destruct ns as [|a0 ns']; [simpl in Hi; lia|]. set (ns := a0 :: ns') in *.
    assert (Hne : ns <> []) by (unfold ns; discriminate).
    rewrite (r_first _ _ _ H). cbn [hdo ns].
    change (match Some a0 with Some _ => ?x | None => _ end) with x.
    destruct Hc as (C1 & _ & C3). specialize (C3 Hne).
    assert (D := r_dll _ _ _ H). rewrite (r_count _ _ _ H), (r_last _ _ _ H), lasto_nth. fold ns.
    destruct (Nat.lt_trichotomy (cindex s) i) as [L|[E|G]].
    - assert (E1 : (cindex s <? i) = true) by (apply Nat.ltb_lt; lia).
      assert (E2 : (i <? cindex s) = false) by (apply Nat.ltb_ge; lia). rewrite E1, E2. cbv zeta.
      destruct (i - cindex s <=? length ns - i - 1).
      + rewrite C1, (walk_next_ok _ ns vs) by (auto; lia). cbn [obind]. do 3 f_equal. lia.
      + rewrite (walk_prev_ok _ ns vs) by (auto; lia). cbn [obind]. do 3 f_equal. lia.
    - assert (E1 : (cindex s <? i) = false) by (apply Nat.ltb_ge; lia).
      assert (E2 : (i <? cindex s) = false) by (apply Nat.ltb_ge; lia). rewrite E1, E2. cbn [obind].
      rewrite C1, E. auto.
    - assert (E1 : (cindex s <? i) = false) by (apply Nat.ltb_ge; lia).
      assert (E2 : (i <? cindex s) = true) by (apply Nat.ltb_lt; lia). rewrite E1, E2. cbv zeta. cbn [obind].
      destruct (cindex s - i <=? i).
      + rewrite C1, (walk_prev_ok _ ns vs) by (auto; lia). cbn [obind]. do 3 f_equal. lia.
      + change (Some a0) with (nth_error ns 0). rewrite (walk_next_ok _ ns vs) by (auto; lia). cbn [obind]. auto.
  Qed.

  (** ** Heap updates *)
  Lemma put_eq : forall h a n, put h a n a = n.
  Proof. intros. unfold LinkedList_Model.put. rewrite Nat.eqb_refl. auto. Qed.
  Lemma put_neq : forall h a n b, b <> a -> put h a n b = h b.
  Proof. intros. unfold LinkedList_Model.put. apply Nat.eqb_neq in H. rewrite H. auto. Qed.
  Lemma store_ok : forall h a f n, h a = Some n -> store h (Some a) f = Ok (put h a (Some (f n))).
  Proof. intros. cbn. rewrite H. auto. Qed.
  Lemma load_ok : forall h a n, h a = Some n -> load h (Some a) = Ok n.
  Proof. intros. cbn. rewrite H. auto. Qed.

  Lemma alloc_ok : forall s ns vs x s1 a, lrep0 s ns vs -> alloc_node A P pzero s x = (s1, a) ->
    heap s a = None /\ heap s1 = put (heap s) a (Some (mkNode A P None None x pzero)) /\
    lfirst s1 = lfirst s /\ llast s1 = llast s /\ lcount s1 = S (lcount s) /\ cnode s1 = cnode s /\ cindex s1 = cindex s /\
    NoDup (pool s1) /\ (forall b, In b (pool s1) -> heap s b = None /\ b <> a /\ b < fresh s1) /\
    (forall b, fresh s1 <= b -> heap s b = None /\ b <> a).
  Proof.
    intros s ns vs x s1 a H. unfold alloc_node. destruct (r_pool _ _ _ H) as [Hp1 Hp2]. assert (Hf := r_fresh _ _ _ H).
    destruct (pool s) as [|c r] eqn:Ep; intros E; inversion E; subst; clear E; cbn.
    - split; [auto|]. repeat (split; [reflexivity|]). split; [constructor|]. split; [intros b []|].
      intros b Hb. split; [apply Hf; lia|lia].
    - destruct (Hp2 a (or_introl eq_refl)) as [Ha1 Ha2]. inversion Hp1 as [|? ? Hni Hnd]; subst.
      split; [auto|]. repeat (split; [reflexivity|]). split; [auto|]. split.
      + intros b Hb. destruct (Hp2 b (or_intror Hb)). split; auto. split; auto. intros ->. auto.
      + intros b Hb. split; auto. lia.
  Qed.

  Lemma not_in_none : forall s ns vs a, lrep0 s ns vs -> heap s a = None -> ~ In a ns.
  Proof. intros s ns vs a H Ha Hi. destruct (dll_in _ _ _ _ _ _ (r_dll _ _ _ H) Hi). congruence. Qed.

  Lemma lasto_some : forall ns, ns <> [] -> exists r b, ns = r ++ [b] /\ lasto None ns = Some b.
  Proof.
    intros ns H. destruct ns as [|b r] using rev_ind; [congruence|]. exists r, b. split; auto.
    rewrite lasto_app. auto.
  Qed.

  Lemma dll_last_node : forall r b vs h p n, dll h p (r ++ [b]) vs n ->
    exists vs' v, vs = vs' ++ [v] /\ length vs' = length r /\ h b = Some (mkNode A P (lasto p r) n (fst v) (snd v)).
  Proof.
    intros r b vs h p n H. assert (L := dll_length _ _ _ _ _ H). rewrite app_length in L. cbn in L.
    destruct vs as [|v vs'] using rev_ind; [simpl in L; lia|]. clear IHvs'. rewrite app_length in L. cbn in L.
    exists vs', v. split; auto. split; [lia|]. apply dll_app in H; [|lia]. destruct H as [_ [H _]]. auto.
  Qed.

  Lemma insert_ok : forall s ns1 ns2 vs1 vs2 x, lrep0 s (ns1 ++ ns2) (vs1 ++ vs2) -> length ns1 = length vs1 ->
    (ns1 <> [] -> ns2 <> [] -> cur_ok s (ns1 ++ ns2)) ->
    exists s' a, insert_object A P pzero s (length ns1) x = Ok s' /\
      lrep s' (ns1 ++ a :: ns2) (vs1 ++ (x, pzero) :: vs2) /\ cindex s' = length ns1.
  Proof.
    intros s ns1 ns2 vs1 vs2 x H Hlen Hcur. unfold insert_object.
    assert (Hd := r_dll _ _ _ H). assert (Hnd := r_nodup _ _ _ H).
    assert (Hlen2 : length ns2 = length vs2).
    { destruct (lrep_len _ _ _ H) as [_ L]. rewrite !app_length in L. lia. }
    (* the pieces common to all branches *)
    assert (Fin : forall s0 s1 a h' s', lrep0 s0 (ns1 ++ ns2) (vs1 ++ vs2) -> alloc_node A P pzero s0 x = (s1, a) ->
       h' a = Some (mkNode A P (lasto None ns1) (hdo None ns2) x pzero) ->
       (forall b, b <> a -> lasto None ns1 <> Some b -> hdo None ns2 <> Some b -> h' b = heap s0 b) ->
       (forall b nd, lasto None ns1 = Some b -> heap s0 b = Some nd -> h' b = Some (set_next A P (Some a) nd)) ->
       (forall b nd, hdo None ns2 = Some b -> heap s0 b = Some nd -> h' b = Some (set_prev A P (Some a) nd)) ->
       heap s' = h' -> pool s' = pool s1 -> fresh s' = fresh s1 -> lcount s' = lcount s1 ->
       lfirst s' = hdo None (ns1 ++ a :: ns2) -> llast s' = lasto None (ns1 ++ a :: ns2) ->
       cnode s' = Some a -> cindex s' = length ns1 ->
       lrep s' (ns1 ++ a :: ns2) (vs1 ++ (x, pzero) :: vs2)).
    { intros s0 s1 a h' s' H0 Ea Ha Hf Hl Hp E1 E2 E3 E4 E5 E6 E7 E8.
      destruct (alloc_ok _ _ _ _ _ _ H0 Ea) as (F1 & F2 & F3 & F4 & F5 & F6 & F7 & F8 & F9 & F10).
      assert (Hna : ~ In a (ns1 ++ ns2)) by (eapply not_in_none; eauto).
      assert (Hkeep : forall b, b <> a -> heap s0 b = None -> h' b = None).
      { intros b Hb Hn. assert (Hni : ~ In b (ns1 ++ ns2)) by (eapply not_in_none; eauto).
        rewrite Hf; auto.
        - intros E. destruct (lasto_in _ _ _ E) as [[_ ?]|Hi]; [discriminate|]. apply Hni, in_or_app; auto.
        - intros E. apply Hni, in_or_app. right. destruct ns2; cbn in E; inversion E; subst; left; auto. }
      split.
      - constructor.
        + apply NoDup_Add with (a := a) (l := ns1 ++ ns2); auto. apply Add_app.
        + rewrite E1. eapply (dll_insert ns1 ns2 vs1 vs2 (heap s0) h' a (x, pzero)); auto.
          * apply (r_dll _ _ _ H0).
          * intros b Hb Hl1 Hl2. apply Hf; auto. intros ->. auto.
        + auto.
        + auto.
        + rewrite E4, F5, (r_count _ _ _ H0), !app_length. simpl. lia.
        + rewrite E1, E2, E3. split; auto. intros b Hb. destruct (F9 b Hb) as (G1 & G2 & G3). auto.
        + rewrite E1, E3. intros b Hb. destruct (F10 b Hb). auto.
      - split; [|split].
        + rewrite E7, E8, nth_error_app2, Nat.sub_diag; auto.
        + intros E. destruct ns1; discriminate.
        + intros _. rewrite E8, app_length. simpl. lia. }
    rewrite (r_first _ _ _ H). destruct (ns1 ++ ns2) as [|f fr] eqn:Ens.
    - (* empty list *)
      destruct (app_eq_nil _ _ Ens) as [-> ->]. cbn [hdo].
      destruct (alloc_node A P pzero s x) as [s1 a] eqn:Ea.
      destruct (alloc_ok _ _ _ _ _ _ H Ea) as (F1 & F2 & F3 & F4 & F5 & F6 & F7 & _).
      eexists. exists a. split; [reflexivity|]. split; [|reflexivity].
      match goal with |- lrep ?s' _ _ => apply (Fin s s1 a (heap s') s') end; try reflexivity; auto; try (intros; discriminate);
            cbn [with_cursor with_ends with_heap LinkedList_Model.heap].
      + rewrite F2, put_eq. auto.
      + intros b Hb _ _. rewrite F2, put_neq; auto.
    - assert (Hh : hdo None (ns1 ++ ns2) = Some f) by (rewrite Ens; auto).
      cbn [hdo]. rewrite <- Ens in H, Fin, Hd, Hnd, Hcur.
      destruct (length ns1 =? 0) eqn:E0.
      + (* at the front *)
        apply Nat.eqb_eq in E0. destruct ns1; [|discriminate]. cbn [app] in Ens. subst ns2.
        destruct vs1; [|discriminate]. cbn [app] in *.
        destruct (alloc_node A P pzero s x) as [s1 a] eqn:Ea.
        destruct (alloc_ok _ _ _ _ _ _ H Ea) as (F1 & F2 & F3 & F4 & F5 & F6 & F7 & _).
        rewrite F3, (r_first _ _ _ H). cbn [hdo].
        destruct (dll_in _ _ _ _ _ f Hd (or_introl eq_refl)) as (ndf & Ef).
        assert (Hfa : f <> a) by congruence.
        erewrite (store_ok (heap s1)) by (rewrite F2; apply put_eq). cbn [obind].
        erewrite (store_ok _ f) by (rewrite put_neq by auto; rewrite F2, put_neq by auto; exact Ef). cbn [obind].
        eexists. exists a. split; [reflexivity|]. split; [|reflexivity].
        match goal with |- lrep ?s' _ _ => apply (Fin s s1 a (heap s') s') end; try reflexivity; auto; try (intros; discriminate);
            cbn [with_cursor with_ends with_heap LinkedList_Model.heap].
        * cbn [with_cursor with_ends with_heap LinkedList_Model.heap]. rewrite put_neq, put_eq by auto. reflexivity.
        * intros b Hb _ Hb2. cbn [hdo] in Hb2. rewrite !put_neq by congruence. rewrite F2, put_neq; auto.
        * intros b nd E Eb. cbn [hdo] in E. inversion E; subst. rewrite put_eq. congruence.
        * cbn [with_cursor with_ends with_heap LinkedList_Model.llast lasto]. rewrite F4, (r_last _ _ _ H). auto.
      + apply Nat.eqb_neq in E0. rewrite (r_count _ _ _ H).
        destruct (length ns1 =? length (ns1 ++ ns2)) eqn:E1.
        * (* at the end *)
          apply Nat.eqb_eq in E1. rewrite app_length in E1.
          destruct ns2; [|simpl in E1; lia]. destruct vs2; [|discriminate]. rewrite !app_nil_r in *.
          destruct (alloc_node A P pzero s x) as [s1 a] eqn:Ea.
          destruct (alloc_ok _ _ _ _ _ _ H Ea) as (F1 & F2 & F3 & F4 & F5 & F6 & F7 & _).
          destruct (lasto_some ns1) as (r & b & Er & El); [intros ->; simpl in E0; lia|].
          rewrite F4, (r_last _ _ _ H), El.
          destruct (dll_in _ _ _ _ _ b Hd) as (ndb & Eb); [rewrite Er; apply in_or_app; right; left; auto|].
          assert (Hba : b <> a) by congruence.
          erewrite (store_ok (heap s1)) by (rewrite F2; apply put_eq). cbn [obind].
          erewrite (store_ok _ b) by (rewrite put_neq by auto; rewrite F2, put_neq by auto; exact Eb). cbn [obind].
          eexists. exists a. split; [reflexivity|].
          assert (Hc : lcount s1 - 1 = length ns1) by (rewrite F5, (r_count _ _ _ H); lia).
          split; [|exact Hc].
          match goal with |- lrep ?s' _ _ => apply (Fin s s1 a (heap s') s') end; try reflexivity; auto; try (intros; discriminate);
            cbn [with_cursor with_ends with_heap LinkedList_Model.heap].
          -- rewrite put_neq, put_eq by auto. rewrite El. reflexivity.
          -- intros c Hc1 Hc2 _. rewrite El in Hc2. rewrite !put_neq by congruence. rewrite F2, put_neq; auto.
          -- intros c nd E Ec. rewrite El in E. inversion E; subst. rewrite put_eq. congruence.
          -- cbn [with_cursor with_ends with_heap LinkedList_Model.lfirst]. rewrite F3, (r_first _ _ _ H), hdo_app.
             destruct ns1; [simpl in E0; lia|reflexivity].
          -- cbn [with_cursor with_ends with_heap LinkedList_Model.llast]. rewrite lasto_app. reflexivity.
        * (* in the middle *)
          apply Nat.eqb_neq in E1. rewrite app_length in E1.
          assert (Hne2 : ns2 <> []) by (intros ->; simpl in E1; lia).
          assert (Hne1 : ns1 <> []) by (intros ->; simpl in E0; lia).
          assert (Hlt : length ns1 < length (ns1 ++ ns2)) by (rewrite app_length; destruct ns2; [congruence|simpl; lia]).
          rewrite (move_cursor_ok s (ns1 ++ ns2) (vs1 ++ vs2) (length ns1) (conj H (Hcur Hne1 Hne2)) Hlt).
          cbn [obind].
          rewrite nth_error_app2, Nat.sub_diag by auto.
          destruct ns2 as [|c ns2]; [congruence|]. cbn [nth_error].
          assert (H' := lrep0_cursor _ _ _ (Some c) (length ns1) H).
          set (s0 := with_cursor A P s (Some c) (length ns1)) in *.
          destruct (alloc_node A P pzero s0 x) as [s1 a] eqn:Ea.
          destruct (alloc_ok _ _ _ _ _ _ H' Ea) as (F1 & F2 & F3 & F4 & F5 & F6 & F7 & _).
          change (cnode s0) with (Some c).
          destruct (lasto_some ns1 Hne1) as (r & b & Er & El).
          destruct vs2 as [|v2 vs2]; [discriminate|].
          assert (Hd2 := Hd). apply dll_app in Hd2; auto. destruct Hd2 as [Hdl [Hdc _]]. rewrite El in Hdc.
          destruct (dll_in _ _ _ _ _ b Hdl) as (ndb & Eb); [rewrite Er; apply in_or_app; right; left; auto|].
          change (heap s0) with (heap s) in *.
          assert (Hba : b <> a) by congruence. assert (Hca : c <> a) by congruence.
          assert (Hbc : b <> c).
          { intros ->. rewrite Er, <- app_assoc in Hnd. cbn [app] in Hnd. apply NoDup_remove_2 in Hnd. apply Hnd.
            apply in_or_app. right. left. auto. }
          erewrite (store_ok (heap s1) a) by (rewrite F2; apply put_eq). cbn [obind].
          erewrite load_ok by (rewrite put_neq by auto; rewrite F2, put_neq by auto; exact Hdc). cbn [obind nprev].
          erewrite (store_ok _ a) by apply put_eq. cbn [obind].
          erewrite (store_ok _ b) by (rewrite !put_neq by auto; rewrite F2, put_neq by auto; exact Eb). cbn [obind].
          erewrite (store_ok _ c) by (rewrite !put_neq by auto; rewrite F2, put_neq by auto; exact Hdc). cbn [obind].
          eexists. exists a. split; [reflexivity|]. split; [|cbn; rewrite F7; reflexivity].
          match goal with |- lrep ?s' _ _ => apply (Fin s0 s1 a (heap s') s') end; try reflexivity; auto;
            cbn [with_cursor with_ends with_heap LinkedList_Model.heap].
          -- rewrite put_neq, put_neq, put_eq by auto. rewrite El. reflexivity.
          -- intros d Hd1 Hd2 Hd3. rewrite El in Hd2. cbn [hdo] in Hd3. rewrite !put_neq by congruence. rewrite F2, put_neq; auto.
          -- intros d nd E Ed. rewrite El in E. inversion E; subst. rewrite put_neq, put_eq by auto. 
             change (heap s0) with (heap s) in Ed. congruence.
          -- intros d nd E Ed. cbn [hdo] in E. inversion E; subst. rewrite put_eq. change (heap s0) with (heap s) in Ed. congruence.
          -- cbn [with_cursor with_ends with_heap LinkedList_Model.lfirst]. rewrite F3. unfold s0. cbn. rewrite (r_first _ _ _ H), !hdo_app.
             destruct ns1; [congruence|reflexivity].
          -- cbn [with_cursor with_ends with_heap LinkedList_Model.llast]. rewrite F4. unfold s0. cbn. rewrite (r_last _ _ _ H), !lasto_app. reflexivity.
  Qed.
  (** ** Removal *)
  Lemma hdo_in : forall ns b, hdo None ns = Some b -> In b ns.
  Proof. destruct ns; cbn; intros b E; inversion E; auto. Qed.
  Lemma lasto_in' : forall ns b, lasto None ns = Some b -> In b ns.
  Proof. intros ns b E. destruct (lasto_in _ _ _ E) as [[_ ?]|]; auto. discriminate. Qed.

  Lemma remove_one_ok : forall s ns1 ns2 vs1 vs2 a v n', lrep0 s (ns1 ++ a :: ns2) (vs1 ++ v :: vs2) -> length ns1 = length vs1 ->
    cnode s = Some a ->
    exists s', remove_loop A P (S n') s = remove_loop A P n' s' /\ lrep0 s' (ns1 ++ ns2) (vs1 ++ vs2) /\
      cnode s' = hdo None ns2 /\ cindex s' = cindex s.
  Proof.
    intros s ns1 ns2 vs1 vs2 a v n' H Hlen Hc. cbn [remove_loop]. rewrite Hc.
    assert (Hd := r_dll _ _ _ H). assert (Hnd := r_nodup _ _ _ H).
    assert (Hd2 := Hd). apply dll_app in Hd2; auto. destruct Hd2 as [D1 [Da D2]]. cbn [hdo] in D1.
    rewrite (load_ok _ _ _ Da). cbn [obind nprev nnext].
    assert (Hnd2 := NoDup_remove_2 _ _ _ Hnd). rewrite in_app_iff in Hnd2.
    assert (Hdis : forall b, In b ns1 -> ~ In b ns2).
    { intros b B1 B2. apply in_split in B1. destruct B1 as (q1 & q2 & ->). rewrite <- app_assoc in Hnd. cbn [app] in Hnd.
      apply NoDup_remove_2 in Hnd. apply Hnd. rewrite !in_app_iff. right. right. right. auto. }
    (* the two pointer updates *)
    assert (S1 : exists h1, (match lasto None ns1 with
               | Some b => store (heap s) (Some b) (set_next A P (hdo None ns2))
               | None => Ok (heap s) end) = Ok h1 /\
             (forall b, lasto None ns1 <> Some b -> h1 b = heap s b) /\
             (forall b nd, lasto None ns1 = Some b -> heap s b = Some nd -> h1 b = Some (set_next A P (hdo None ns2) nd))).
    { destruct (lasto None ns1) as [b|] eqn:El.
      - destruct (dll_in _ _ _ _ _ b D1 (lasto_in' _ _ El)) as (nd & Eb).
        exists (put (heap s) b (Some (set_next A P (hdo None ns2) nd))). rewrite (store_ok _ _ _ _ Eb). split; auto. split.
        + intros c Hcb. apply put_neq. congruence.
        + intros c nd' E Ec. inversion E; subst. rewrite put_eq. congruence.
      - exists (heap s). split; auto. split; auto. intros; discriminate. }
    destruct S1 as (h1 & -> & Hh1 & Hh1'). cbn [obind].
    assert (S2 : exists h2, (match hdo None ns2 with
               | Some b => store h1 (Some b) (set_prev A P (lasto None ns1))
               | None => Ok h1 end) = Ok h2 /\
             (forall b, hdo None ns2 <> Some b -> h2 b = h1 b) /\
             (forall b nd, hdo None ns2 = Some b -> heap s b = Some nd -> h2 b = Some (set_prev A P (lasto None ns1) nd))).
    { destruct (hdo None ns2) as [b|] eqn:Eh.
      - destruct (dll_in _ _ _ _ _ b D2 (hdo_in _ _ Eh)) as (nd & Eb).
        assert (Eb1 : h1 b = Some nd).
        { rewrite Hh1; auto. intros E. apply (Hdis b); [apply lasto_in'; auto|apply hdo_in; auto]. }
        exists (put h1 b (Some (set_prev A P (lasto None ns1) nd))). rewrite (store_ok _ _ _ _ Eb1). split; auto. split.
        + intros c Hcb. apply put_neq. congruence.
        + intros c nd' E Ec. inversion E; subst. rewrite put_eq. congruence.
      - exists h1. split; auto. split; auto. intros; discriminate. }
    destruct S2 as (h2 & -> & Hh2 & Hh2'). cbn [obind].
    eexists. split; [reflexivity|].
    assert (Hpool := r_pool _ _ _ H). assert (Hfresh := r_fresh _ _ _ H).
    assert (Hnone : forall b, heap s b = None -> h2 b = None).
    { intros b Hb. assert (Hni : ~ In b (ns1 ++ a :: ns2)) by (eapply not_in_none; eauto). rewrite in_app_iff in Hni. cbn in Hni.
      rewrite Hh2, Hh1; auto.
      - intros E. apply lasto_in' in E. tauto.
      - intros E. apply hdo_in in E. tauto. }
    split; [|split; [reflexivity|reflexivity]].
    constructor; cbn [with_cursor free_node with_ends with_heap LinkedList_Model.heap LinkedList_Model.pool LinkedList_Model.fresh
      LinkedList_Model.lfirst LinkedList_Model.llast LinkedList_Model.lcount].
    - eapply NoDup_remove_1; eauto.
    - eapply (dll_remove ns1 ns2 vs1 vs2 (heap s) _ a v); auto.
      + intros b Hb Hl1 Hl2. rewrite put_neq, Hh2, Hh1; auto. intros ->. rewrite in_app_iff in Hb. tauto.
      + intros b nd E Eb. rewrite put_neq, Hh2; auto.
        * intros E2. apply (Hdis b); [apply lasto_in'; auto|apply hdo_in; auto].
        * intros ->. apply lasto_in' in E. tauto.
      + intros b nd E Eb. rewrite put_neq; auto. intros ->. apply hdo_in in E. tauto.
    - rewrite (r_first _ _ _ H), !hdo_app. cbn [hdo]. destruct ns1 as [|c ns1]; cbn [hdo ptr_eqb].
      + rewrite Nat.eqb_refl. auto.
      + assert (Hca : c =? a = false) by (apply Nat.eqb_neq; intros ->; apply Hnd2; left; left; auto). rewrite Hca. auto.
    - rewrite (r_last _ _ _ H), !lasto_app. cbn [lasto]. destruct ns2 as [|c ns2].
      + cbn [lasto ptr_eqb]. rewrite Nat.eqb_refl. auto.
      + cbn [lasto]. destruct (lasto (Some c) ns2) as [d|] eqn:El.
        * assert (Hda : d =? a = false).
          { apply Nat.eqb_neq. intros ->. apply Hnd2. right. destruct (lasto_in _ _ _ El) as [[-> E]|]; [inversion E; left; auto|right; auto]. }
          cbn [ptr_eqb]. rewrite Hda. auto.
        * exfalso. clear - El. revert c El. induction ns2; cbn; intros; [discriminate|eauto].
    - rewrite (r_count _ _ _ H), !app_length. cbn. lia.
    - destruct Hpool as [Hp1 Hp2]. split.
      + constructor; auto. intros Hi. destruct (Hp2 a Hi). congruence.
      + intros b [<-|Hb].
        * split; [apply put_eq|]. destruct (Nat.lt_ge_cases a (fresh s)); auto. rewrite Hfresh in Da by auto. discriminate.
        * destruct (Hp2 b Hb). split; auto. destruct (Nat.eq_dec b a) as [->|]; [apply put_eq|]. rewrite put_neq by auto. auto.
    - intros b Hb. destruct (Nat.eq_dec b a) as [->|]; [apply put_eq|]. rewrite put_neq by auto. auto.
  Qed.

  Lemma remove_loop_ok : forall nsm vsm s ns1 ns2 vs1 vs2, lrep0 s (ns1 ++ nsm ++ ns2) (vs1 ++ vsm ++ vs2) ->
    length ns1 = length vs1 -> length nsm = length vsm -> cnode s = hdo None (nsm ++ ns2) ->
    exists s', remove_loop A P (length nsm) s = Ok s' /\ lrep0 s' (ns1 ++ ns2) (vs1 ++ vs2) /\
      cnode s' = hdo None ns2 /\ cindex s' = cindex s.
  Proof.
    induction nsm as [|a nsm IH]; intros vsm s ns1 ns2 vs1 vs2 H L1 L2 Hc.
    - destruct vsm; [|discriminate]. exists s. cbn. auto.
    - destruct vsm as [|v vsm]; [discriminate|]. cbn [app hdo length] in *.
      destruct (remove_one_ok s ns1 (nsm ++ ns2) vs1 (vsm ++ vs2) a v (length nsm) H L1 Hc) as (s1 & E1 & H1 & C1 & I1).
      rewrite E1. destruct (IH vsm s1 ns1 ns2 vs1 vs2) as (s2 & E2 & H2 & C2 & I2); auto.
      exists s2. split; auto. split; auto. split; auto. lia.
  Qed.

  Lemma remove_range_ok : forall s ns1 nsm ns2 vs1 vsm vs2, lrep s (ns1 ++ nsm ++ ns2) (vs1 ++ vsm ++ vs2) ->
    length ns1 = length vs1 -> length nsm = length vsm ->
    exists s', remove_range A P s (length ns1) (length nsm) = Ok s' /\ lrep s' (ns1 ++ ns2) (vs1 ++ vs2).
  Proof.
    intros s ns1 nsm ns2 vs1 vsm vs2 H L1 L2. unfold remove_range. destruct nsm as [|a nsm].
    - destruct vsm; [|discriminate]. exists s. auto.
    - cbn [length Nat.eqb].
      assert (Hlt : length ns1 < length (ns1 ++ (a :: nsm) ++ ns2)) by (rewrite app_length; simpl; lia).
      rewrite (move_cursor_ok s _ _ _ H Hlt). cbn [obind].
      rewrite nth_error_app2, Nat.sub_diag by auto. cbn [app nth_error].
      destruct H as [H _].
      assert (H' := lrep0_cursor _ _ _ (Some a) (length ns1) H). 
      destruct (remove_loop_ok (a :: nsm) vsm _ ns1 ns2 vs1 vs2 H') as (s1 & E1 & H1 & C1 & I1); auto.
      cbn [length] in E1. rewrite E1. cbn [obind]. rewrite C1. cbn in I1.
      destruct ns2 as [|c ns2]; cbn [hdo].
      + rewrite app_nil_r in *. rewrite (r_count _ _ _ H1), (r_last _ _ _ H1), (r_first _ _ _ H1), lasto_nth.
        destruct (0 <? length ns1) eqn:E0.
        * apply Nat.ltb_lt in E0. eexists. split; [reflexivity|]. apply lrep_cursor; auto. lia.
        * apply Nat.ltb_ge in E0. destruct ns1; [|simpl in E0; lia]. eexists. split; [reflexivity|].
          split; [apply lrep0_cursor; auto|]. split; auto. split; auto. congruence.
      + exists s1. split; auto. split; auto. split; [|split].
        * rewrite C1, I1, nth_error_app2, Nat.sub_diag; auto.
        * intros E. destruct ns1; discriminate.
        * intros _. rewrite I1, app_length. simpl. lia.
  Qed.

  (** ** Edits *)
  Definition represents (s : llist) (vs : list entry) : Prop := exists ns, lrep s ns vs.

  Lemma split_at : forall B (l : list B) n, n <= length l -> exists l1 l2, l = l1 ++ l2 /\ length l1 = n.
  Proof. intros B l n H. exists (firstn n l), (skipn n l). rewrite firstn_skipn, firstn_length. split; auto. lia. Qed.

  Lemma insert_objects_ok : forall new s ns1 ns2 vs1 vs2, lrep s (ns1 ++ ns2) (vs1 ++ vs2) -> length ns1 = length vs1 ->
    exists s' ns', insert_objects A P pzero s (length ns1) new = Ok s' /\ lrep s' (ns1 ++ ns' ++ ns2) (vs1 ++ plain A P pzero new ++ vs2).
  Proof.
    induction new as [|x new IH]; intros s ns1 ns2 vs1 vs2 H L; cbn [insert_objects].
    - exists s, []. auto.
    - destruct (insert_ok s ns1 ns2 vs1 vs2 x (proj1 H) L (fun _ _ => proj2 H)) as (s1 & a & E1 & H1 & _).
      rewrite E1. cbn [obind].
      replace (ns1 ++ a :: ns2) with ((ns1 ++ [a]) ++ ns2) in H1 by (rewrite <- app_assoc; auto).
      replace (vs1 ++ (x, pzero) :: vs2) with ((vs1 ++ [(x, pzero)]) ++ vs2) in H1 by (rewrite <- app_assoc; auto).
      destruct (IH s1 _ _ _ _ H1) as (s2 & ns' & E2 & H2); [rewrite !app_length; simpl; lia|].
      rewrite app_length in E2. cbn [length] in E2. rewrite Nat.add_1_r in E2.
      exists s2, (a :: ns'). split; auto. cbn [plain map app]. rewrite <- !app_assoc in H2. exact H2.
  Qed.

  Lemma replace_range_ok : forall s vs loc len new, represents s vs -> (loc + len <= INT64_MAX)%Z ->
    exists s', llist_replace_range A P pzero s loc len new = Ok s' /\
      represents s' (seq_replace entry vs loc len (plain A P pzero new)).
  Proof.
    intros s vs loc len new (ns & H) Hfit. unfold llist_replace_range.
    destruct (lrep_len _ _ _ (proj1 H)) as [Hc Hln]. rewrite Hc, (check_range_ok entry) by auto. cbn [obind]. unfold seq_replace.
    destruct (valid_range entry loc len vs) eqn:V; [|exists s; split; auto; exists ns; auto].
    assert (V' := valid_range_facts _ _ _ _ V).
    destruct (list_split3 _ vs _ _ V') as (v1 & v2 & v3 & -> & Lv1 & Lv2).
    destruct (list_split3 _ ns (Z.to_nat loc) (Z.to_nat len)) as (n1 & n2 & n3 & -> & Ln1 & Ln2); [lia|].
    destruct (remove_range_ok s n1 n2 n3 v1 v2 v3 H) as (s1 & E1 & H1); try lia.
    rewrite Ln1, Ln2 in E1. rewrite E1. cbn [obind].
    destruct (insert_objects_ok new s1 n1 n3 v1 v3 H1) as (s2 & ns' & E2 & H2); try lia.
    rewrite Ln1 in E2. exists s2. split; auto. exists (n1 ++ ns' ++ n3).
    rewrite (splice_app entry v1 v2 v3); auto.
  Qed.

  (** ** Reads *)
  Lemma read_at : forall s ns vs i, lrep s ns vs -> i < length vs ->
    exists s' nd v, move_cursor A P s i = Ok s' /\ load (heap s') (cnode s') = Ok nd /\ lrep s' ns vs /\
      nth_error vs i = Some v /\ nobj A P nd = fst v /\ nprio A P nd = snd v.
  Proof.
    intros s ns vs i H Hi. destruct (lrep_len _ _ _ (proj1 H)) as [_ Hl].
    assert (Hi' : i < length ns) by lia.
    assert (H' := lrep_cursor _ _ _ i (proj1 H) Hi').
    destruct (nth_error ns i) as [a|] eqn:Ea; [|apply nth_error_None in Ea; lia].
    destruct (dll_nth _ _ _ _ _ _ (r_dll _ _ _ (proj1 H)) Ea) as (v & Ev & Eh).
    rewrite (move_cursor_ok _ _ _ _ H Hi'), Ea. eexists. eexists. exists v. split; [reflexivity|].
    split; [apply load_ok; exact Eh|]. split; auto.
  Qed.

  Lemma nth_map : forall B C (f : B -> C) l i, nth_error (map f l) i = option_map f (nth_error l i).
  Proof. induction l; destruct i; simpl; auto. Qed.

  Lemma get_ok : forall s vs i, represents s vs ->
    exists s', llist_get A P s i = Ok (s', if (0 <=? i)%Z then nth_error (map fst vs) (Z.to_nat i) else None) /\ represents s' vs.
  Proof.
    intros s vs i (ns & H). unfold llist_get, check_index. destruct (lrep_len _ _ _ (proj1 H)) as [-> _].
    destruct (0 <=? i)%Z eqn:E; [|exists s; split; auto; exists ns; auto]. apply Z.leb_le in E. cbn [andb].
    destruct (i <? Z.of_nat (length vs))%Z eqn:E2.
    - apply Z.ltb_lt in E2. destruct (read_at s ns vs (Z.to_nat i) H) as (s' & nd & v & E3 & E4 & H' & Ev & Eo & _); [lia|].
      rewrite E3. cbn [obind]. rewrite E4. cbn [obind]. exists s'. rewrite nth_map; unfold LinkedList_Spec.entry in *; rewrite Ev; cbn [option_map]; rewrite Eo. split; auto. exists ns; auto.
    - apply Z.ltb_ge in E2. exists s. split; [|exists ns; auto]. do 2 f_equal. symmetry. apply nth_error_None. rewrite map_length. unfold LinkedList_Spec.entry in *. lia.
  Qed.

  Lemma get_priority_ok : forall s vs i, represents s vs ->
    exists s', llist_get_priority A P s i = Ok (s', if (0 <=? i)%Z then nth_error (map snd vs) (Z.to_nat i) else None) /\ represents s' vs.
  Proof.
    intros s vs i (ns & H). unfold llist_get_priority, check_index. destruct (lrep_len _ _ _ (proj1 H)) as [-> _].
    destruct (0 <=? i)%Z eqn:E; [|exists s; split; auto; exists ns; auto]. apply Z.leb_le in E. cbn [andb].
    destruct (i <? Z.of_nat (length vs))%Z eqn:E2.
    - apply Z.ltb_lt in E2. destruct (read_at s ns vs (Z.to_nat i) H) as (s' & nd & v & E3 & E4 & H' & Ev & _ & Ep); [lia|].
      rewrite E3. cbn [obind]. rewrite E4. cbn [obind]. exists s'. rewrite nth_map; unfold LinkedList_Spec.entry in *; rewrite Ev; cbn [option_map]; rewrite Ep. split; auto. exists ns; auto.
    - apply Z.ltb_ge in E2. exists s. split; [|exists ns; auto]. do 2 f_equal. symmetry. apply nth_error_None. rewrite map_length. unfold LinkedList_Spec.entry in *. lia.
  Qed.

  Lemma get_loop_ok : forall n s ns vs i, lrep s ns vs -> i + n <= length vs ->
    exists s', get_loop A P n s i = Ok (s', firstn n (skipn i (map fst vs))) /\ lrep s' ns vs.
  Proof.
    induction n; intros s ns vs i H Hi; cbn [get_loop]; [exists s; auto|].
    destruct (read_at s ns vs i H) as (s1 & nd & v & E1 & E2 & H1 & Ev & Eo & _); [lia|].
    rewrite E1. cbn [obind]. rewrite E2. cbn [obind].
    destruct (IHn s1 ns vs (S i) H1) as (s2 & E3 & H2); [lia|]. rewrite E3. cbn [obind fst snd].
    exists s2. split; auto. rewrite Eo.
    assert (G : skipn i (map fst vs) = fst v :: skipn (S i) (map fst vs)).
    { clear - Ev. revert i Ev. induction vs as [|w vs IH]; intros [|i] Ev; cbn in Ev; try discriminate; [inversion Ev; subst; reflexivity|].
      cbn [map skipn]. rewrite (IH i Ev). reflexivity. }
    rewrite G. auto.
  Qed.

  Lemma get_range_ok : forall s vs loc len, represents s vs -> (loc + len <= INT64_MAX)%Z ->
    exists s', llist_get_range A P s loc len = Ok (s', if valid_range entry loc len vs
        then Some (firstn (Z.to_nat len) (skipn (Z.to_nat loc) (map fst vs))) else None) /\ represents s' vs.
  Proof.
    intros s vs loc len (ns & H) Hfit. unfold llist_get_range.
    destruct (lrep_len _ _ _ (proj1 H)) as [Hc _]. rewrite Hc, (check_range_ok entry) by auto. cbn [obind].
    destruct (valid_range entry loc len vs) eqn:V; [|exists s; split; auto; exists ns; auto].
    assert (V' := valid_range_facts _ _ _ _ V).
    destruct (get_loop_ok (Z.to_nat len) s ns vs (Z.to_nat loc) H V') as (s' & E & H'). rewrite E. cbn [obind fst snd].
    exists s'. split; auto. exists ns; auto.
  Qed.

  (** ** Reversal *)
  (** The heap half way: the nodes of [ns2] already point the other way. *)
  Fixpoint dll_rev (h : heap_t) (n : option addr) (ns : list addr) (vs : list entry) (p : option addr) : Prop :=
    match ns, vs with
    | [], [] => True
    | a :: ns', v :: vs' => h a = Some (mkNode A P (hdo p ns') n (fst v) (snd v)) /\ dll_rev h (Some a) ns' vs' p
    | _, _ => False
    end.

  Lemma dll_to_rev : forall ns vs h p n, dll h p ns vs n -> length ns = length vs ->
    dll_rev h n (rev ns) (rev vs) p.
  Proof.
    assert (G : forall ns1 vs1 ns2 vs2 h n p, length ns1 = length vs1 ->
      (dll_rev h n (ns1 ++ ns2) (vs1 ++ vs2) p <-> dll_rev h n ns1 vs1 (hdo p ns2) /\ dll_rev h (lasto n ns1) ns2 vs2 p)).
    { induction ns1; destruct vs1; cbn [length]; intros; try discriminate; [simpl; tauto|].
      cbn [app dll_rev lasto]. rewrite IHns1 by lia. rewrite hdo_app. tauto. }
    induction ns as [|a ns IH]; destruct vs as [|v vs]; cbn [dll rev]; intros h p n H L; try tauto.
    destruct H as [Ha H]. apply G; [rewrite !rev_length; simpl in L; lia|]. split.
    - cbn [hdo]. apply IH; auto.
    - cbn [dll_rev hdo]. split; auto. rewrite Ha. f_equal. f_equal.
      clear. destruct ns as [|b ns]; cbn; auto. rewrite lasto_app. auto.
  Qed.

  Lemma dll_rev_swap : forall ns vs h h' n p, dll_rev h n ns vs p ->
    (forall a nd, In a ns -> h a = Some nd -> h' a = Some (mkNode A P (nnext A P nd) (nprev A P nd) (nobj A P nd) (nprio A P nd))) ->
    dll h' n ns vs p.
  Proof.
    induction ns as [|a ns IH]; destruct vs as [|v vs]; cbn [dll_rev dll]; intros h h' n p H Hf; auto.
    destruct H as [Ha H]. split; [rewrite (Hf a _ (or_introl eq_refl) Ha); auto|].
    eapply IH; eauto. intros. eapply Hf; eauto. right. auto.
  Qed.

  Lemma reverse_loop_ok : forall ns vs h fuel prev, dll_rev h prev ns vs None -> NoDup ns -> length ns < fuel ->
    exists h', reverse_loop A P fuel h prev (hdo None ns) = Ok h' /\
      (forall b, ~ In b ns -> h' b = h b) /\
      (forall a nd, In a ns -> h a = Some nd -> h' a = Some (mkNode A P (nnext A P nd) (nprev A P nd) (nobj A P nd) (nprio A P nd))).
  Proof.
    induction ns as [|a ns IH]; intros vs h fuel prev H Hnd Hf; (destruct fuel as [|fuel]; [simpl in Hf; lia|]); cbn [hdo reverse_loop].
    - exists h. split; auto. split; auto. intros a nd [].
    - destruct vs as [|v vs]; [destruct H|]. destruct H as [Ha H]. rewrite (load_ok _ _ _ Ha). cbn [obind nprev].
      rewrite (store_ok _ _ _ _ Ha). cbn [obind]. erewrite (store_ok _ a) by apply put_eq. cbn [obind].
      inversion Hnd as [|? ? Hni Hnd']; subst.
      match goal with |- context [reverse_loop A P fuel ?hh _ _] => set (h2 := hh) end.
      assert (Ho : forall b, b <> a -> h2 b = h b) by (intros b Hb; unfold h2; rewrite !put_neq; auto).
      destruct (IH vs h2 fuel (Some a)) as (h' & E & K1 & K2); auto; [|simpl in Hf; lia|].
      { clearbody h2. clear - H Ho Hni. revert H. generalize (Some a) as q. revert vs Hni.
        induction ns as [|b ns IH]; intros [|w vs] Hni q H; cbn [dll_rev] in H |- *; auto.
        destruct H as [Hb H]. split; [rewrite Ho; auto; intros ->; apply Hni; left; auto|].
        apply IH; auto. intros Hi. apply Hni. right. auto. }
      exists h'. split; auto. split.
      + intros b Hb. cbn in Hb. rewrite K1 by tauto. apply Ho. intuition congruence.
      + intros b nd [<-|Hb] Eb.
        * rewrite K1 by auto. unfold h2. rewrite put_eq. rewrite Ha in Eb. inversion Eb; subst. reflexivity.
        * apply K2; auto. rewrite Ho; auto. intros ->. auto.
  Qed.

  Lemma hdo_rev : forall ns, hdo None (rev ns) = lasto None ns.
  Proof. intros ns. destruct ns as [|a ns] using rev_ind; auto. rewrite rev_app_distr, lasto_app. auto. Qed.
  Lemma lasto_rev : forall ns, lasto None (rev ns) = hdo None ns.
  Proof. destruct ns; auto. cbn [rev]. rewrite lasto_app. auto. Qed.

  Lemma reverse_ok : forall s vs, represents s vs -> exists s', llist_reverse A P s = Ok s' /\ represents s' (rev vs).
  Proof.
    intros s vs (ns & H & Hc). unfold llist_reverse. destruct (lrep_len _ _ _ H) as [_ Hl].
    assert (D := dll_to_rev _ _ _ _ _ (r_dll _ _ _ H) Hl).
    assert (N := NoDup_rev (r_nodup _ _ _ H)).
    destruct (reverse_loop_ok (rev ns) (rev vs) (heap s) (S (lcount s)) None D N) as (h' & E & K1 & K2).
    { rewrite rev_length, (r_count _ _ _ H). lia. }
    rewrite hdo_rev in E. rewrite (r_last _ _ _ H), E. cbn [obind]. eexists. split; [reflexivity|]. exists (rev ns).
    assert (Hn : forall b, heap s b = None -> h' b = None).
    { intros b Hb. rewrite K1; auto. intros Hi. apply in_rev in Hi. eapply not_in_none; eauto. }
    split.
    - constructor; cbn [with_cursor with_ends with_heap LinkedList_Model.heap LinkedList_Model.pool LinkedList_Model.fresh
      LinkedList_Model.lfirst LinkedList_Model.llast LinkedList_Model.lcount]; auto.
      + eapply dll_rev_swap; eauto.
      + rewrite hdo_rev. auto.
      + rewrite lasto_rev, (r_first _ _ _ H). auto.
      + rewrite rev_length. apply (r_count _ _ _ H).
      + destruct (r_pool _ _ _ H) as [P1 P2]. split; auto. intros a Ha. destruct (P2 a Ha). auto.
      + intros a Ha. apply Hn. apply (r_fresh _ _ _ H); auto.
    - split; cbn; [rewrite <- hdo_rev; apply hdo_nth|]. split; auto. intros. destruct (rev ns); [congruence|simpl; lia].
  Qed.

  (** ** Sorting *)
  Lemma list_to_array_ok : forall ns vs h p, dll h p ns vs None ->
    list_to_array A P h (length ns) (hdo None ns) = Ok (map fst vs).
  Proof.
    induction ns as [|a ns IH]; destruct vs as [|v vs]; cbn [dll length hdo list_to_array]; intros h p H; try tauto.
    destruct H as [Ha H]. rewrite (load_ok _ _ _ Ha). cbn [obind nnext nobj]. rewrite (IH vs h (Some a) H). auto.
  Qed.

  Lemma array_to_list_ok : forall ns vs l h p, dll h p ns vs None -> NoDup ns -> length l = length vs ->
    exists h', array_to_list A P h l (hdo None ns) = Ok h' /\ dll h' p ns (combine l (map snd vs)) None /\
      (forall b, ~ In b ns -> h' b = h b).
  Proof.
    induction ns as [|a ns IH]; destruct vs as [|v vs]; cbn [dll length hdo array_to_list]; intros l h p H Hnd Hl; try tauto.
    - destruct l; [|discriminate]. exists h. cbn. auto.
    - destruct l as [|x l]; [discriminate|]. destruct H as [Ha H]. cbn [array_to_list].
      rewrite (store_ok _ _ _ _ Ha). cbn [obind]. erewrite load_ok by apply put_eq. cbn [obind set_obj nnext].
      inversion Hnd as [|? ? Hni Hnd']; subst.
      match goal with |- context [array_to_list A P ?hh _ _] => set (h1 := hh) end.
      assert (Ho : forall b, b <> a -> h1 b = h b) by (intros b Hb; unfold h1; rewrite put_neq; auto).
      destruct (IH vs l h1 (Some a)) as (h' & E & D & K); auto.
      { eapply dll_frame; eauto. intros b Hb. apply Ho. intros ->. auto. }
      exists h'. split; auto. split.
      + cbn [combine map dll fst snd]. split; auto. rewrite K by auto. unfold h1. rewrite put_eq. reflexivity.
      + intros b Hb. cbn in Hb. rewrite K by tauto. apply Ho. intuition congruence.
  Qed.

  Lemma map_fst_combine : forall B C (l : list B) (r : list C), length l = length r -> map fst (combine l r) = l.
  Proof. induction l; destruct r; cbn; intros; try discriminate; auto. f_equal. auto. Qed.
  Lemma map_snd_combine : forall B C (l : list B) (r : list C), length l = length r -> map snd (combine l r) = r.
  Proof. induction l; destruct r; cbn; intros; try discriminate; auto. f_equal. auto. Qed.

  Lemma sort_ok : forall cmp s vs, consistent A cmp -> represents s vs ->
    exists s' vs', llist_sort A P cmp s = Ok s' /\ represents s' vs' /\ map snd vs' = map snd vs /\
      Permutation (map fst vs) (map fst vs') /\ ordered A cmp (map fst vs').
  Proof.
    intros cmp s vs Hcmp (ns & H & Hc). unfold llist_sort. destruct (lrep_len _ _ _ H) as [Hcnt Hl].
    destruct (1 <? lcount s) eqn:E1.
    - apply Nat.ltb_lt in E1. rewrite (r_count _ _ _ H), (r_first _ _ _ H).
      rewrite (list_to_array_ok _ _ _ _ (r_dll _ _ _ H)). cbn [obind].
      destruct (sort_objects_ok A cmp Hcmp (map fst vs)) as (l' & E & Hp & Ho). rewrite E. cbn [obind].
      assert (Hl' : length l' = length vs) by (rewrite <- (Permutation_length Hp), map_length; auto).
      destruct (array_to_list_ok ns vs l' (heap s) None (r_dll _ _ _ H) (r_nodup _ _ _ H) Hl') as (h' & E2 & D & K).
      rewrite E2. cbn [obind]. eexists. exists (combine l' (map snd vs)). split; [reflexivity|].
      rewrite map_fst_combine, map_snd_combine by (rewrite map_length; auto).
      split; [|auto]. exists ns.
      assert (Hn : forall b, heap s b = None -> h' b = None).
      { intros b Hb. rewrite K; auto. eapply not_in_none; eauto. }
      split.
      + constructor; cbn [with_cursor with_heap LinkedList_Model.heap LinkedList_Model.pool LinkedList_Model.fresh
          LinkedList_Model.lfirst LinkedList_Model.llast LinkedList_Model.lcount]; auto; try apply H.
        * destruct (r_pool _ _ _ H) as [P1 P2]. split; auto. intros a Ha. destruct (P2 a Ha). auto.
        * intros a Ha. apply Hn. apply (r_fresh _ _ _ H); auto.
      + split; cbn; [apply hdo_nth|]. split; auto. intros. destruct ns; [congruence|simpl; lia].
    - apply Nat.ltb_ge in E1. exists s, vs. split; auto. split; [exists ns; split; auto|]. split; auto. split; auto.
      rewrite Hcnt in E1. destruct vs as [|v [|]]; cbn in E1; try lia; repeat constructor.
  Qed.

  (** ** Enumeration *)
  Lemma apply_ok : forall S (cb : S -> A -> S * bool) (visit : S -> list A -> S * bool),
    (forall s, visit s [] = (s, false)) ->
    (forall s x l, visit s (x :: l) = let (s', stop) := cb s x in if stop then (s', true) else visit s' l) ->
    forall s vs st, represents s vs -> llist_apply A P cb st s = Ok (visit st (map fst vs)).
  Proof.
    intros S cb visit V1 V2 s vs st (ns & H & _). unfold llist_apply. rewrite (r_count _ _ _ H), (r_first _ _ _ H).
    assert (D := r_dll _ _ _ H). revert D. generalize (@None addr) at 1 as p. revert vs st H.
    assert (G : forall ns vs st fuel p, dll (heap s) p ns vs None -> length ns < fuel ->
       apply_loop A P cb st (heap s) fuel (hdo None ns) = Ok (visit st (map fst vs))).
    { induction ns0 as [|a ns0 IH]; destruct vs as [|v vs]; cbn [dll]; intros st fuel p D Hf; try tauto;
        (destruct fuel as [|fuel]; [simpl in Hf; lia|]); cbn [apply_loop hdo map].
      - rewrite V1. auto.
      - destruct D as [Ha D]. rewrite (load_ok _ _ _ Ha). cbn [obind nobj nnext]. rewrite V2.
        destruct (cb st (fst v)) as [st' stop]. destruct stop; auto. eapply IH; eauto. simpl in Hf. lia. }
    intros. eapply G; eauto.
  Qed.

  (** ** Prioritised insertion *)
  Notation before := (before A P gt).
  Notation after := (after A P gt).
  Notation present := (present A oid P).
  Notation remove_last := (remove_last A oid P).
  Notation place := (place A oid P gt).
  Notation seq_priority := (seq_priority A oid P gt).

  Fixpoint last_idx (x : A) (l : list entry) : option nat :=
    match l with
    | [] => None
    | e :: l' => match last_idx x l' with
                 | Some k => Some (S k)
                 | None => if oid (fst e) x then Some 0 else None
                 end
    end.

  Lemma last_idx_present : forall x l, present x l = match last_idx x l with Some _ => true | None => false end.
  Proof.
    unfold LinkedList_Spec.present. induction l as [|e l IH]; cbn; auto. rewrite IH. destruct (last_idx x l), (oid (fst e) x); auto.
  Qed.
  Lemma last_idx_app : forall x l1 l2, last_idx x (l1 ++ l2) =
    match last_idx x l2 with Some k => Some (length l1 + k) | None => last_idx x l1 end.
  Proof.
    induction l1 as [|e l1 IH]; intros l2; cbn; [destruct (last_idx x l2); auto|].
    rewrite IH. destruct (last_idx x l2); auto.
  Qed.
  Lemma last_idx_lt : forall x l k, last_idx x l = Some k -> k < length l.
  Proof.
    induction l as [|e l IH]; cbn; intros k E; [discriminate|]. destruct (last_idx x l).
    - inversion E; subst. specialize (IH _ eq_refl). lia.
    - destruct (oid (fst e) x); inversion E. lia.
  Qed.
  Lemma remove_last_idx : forall x l, exists l1 l2, 
    match last_idx x l with
    | Some k => exists e, l = l1 ++ e :: l2 /\ length l1 = k /\ remove_last x l = l1 ++ l2
    | None => remove_last x l = l
    end.
  Proof.
    induction l as [|e l IH]; cbn [last_idx LinkedList_Spec.remove_last]; [exists [], []; auto|].
    rewrite last_idx_present. destruct IH as (l1 & l2 & IH). destruct (last_idx x l) as [k|].
    - destruct IH as (f & E1 & E2 & E3). exists (e :: l1), l2, f. rewrite andb_false_r, E3, E1. cbn. auto.
    - cbn [negb]. rewrite andb_true_r. destruct (oid (fst e) x).
      + exists [], l, e. cbn. auto.
      + exists [], []. rewrite IH. auto.
  Qed.

  Lemma before_after : forall p l, before p l ++ after p l = l.
  Proof. induction l as [|e l IH]; cbn; auto. destruct (gt p (snd e)); cbn; auto. f_equal. auto. Qed.

  Lemma priority_loop_ok : forall s x p pol ns vs q i fuel ins rem, dll (heap s) q ns vs None -> length ns < fuel ->
    i + length ns = lcount s -> snd ins <= lcount s ->
    priority_loop A oid P gt fuel s x p pol (hdo None ns) i ins rem =
      Ok (if present x vs && match pol with InsertIfNotFound => true | _ => false end then None
          else Some (if snd ins =? lcount s
                     then match nth_error ns (length (before p vs)) with
                          | Some a => (Some a, i + length (before p vs)) | None => ins end
                     else ins,
                     match last_idx x vs with
                     | Some k => match nth_error ns k with Some a => Some (a, i + k) | None => rem end
                     | None => rem end)).
  Proof.
    intros s x p pol. induction ns as [|a ns IH]; intros vs q i fuel ins rem D Hf Hi Hs;
      (destruct fuel as [|fuel]; [simpl in Hf; lia|]); destruct vs as [|v vs]; cbn [dll] in D; try tauto; cbn [hdo priority_loop].
    - cbn. destruct (snd ins =? lcount s); auto.
    - destruct D as [Ha D]. rewrite (load_ok _ _ _ Ha). cbn [obind nobj nprio nnext].
      cbn [length] in Hf, Hi. cbn [LinkedList_Spec.present existsb last_idx LinkedList_Spec.before].
      fold (present x vs).
      destruct (oid (fst v) x && match pol with InsertIfNotFound => true | _ => false end) eqn:E1.
      { apply andb_true_iff in E1. destruct E1 as [-> ->]. reflexivity. }
      rewrite (IH vs (Some a)); auto; try lia.
      2:{ destruct ((snd ins =? lcount s) && gt p (snd v)); cbn; lia. }
      rewrite (last_idx_present x vs).
      assert (E2 : (oid (fst v) x || present x vs) && match pol with InsertIfNotFound => true | _ => false end
                 = present x vs && match pol with InsertIfNotFound => true | _ => false end).
      { destruct (oid (fst v) x); cbn [andb] in E1; [rewrite E1, !andb_false_r; auto|auto]. }
      rewrite last_idx_present in E2. rewrite E2. f_equal.
      match goal with |- (if ?b then _ else _) = _ => destruct b; auto end. f_equal. f_equal.
      + destruct (snd ins =? lcount s) eqn:E3; cbn [andb].
        * destruct (gt p (snd v)); cbn [snd length nth_error].
          -- replace (i =? lcount s) with false by (symmetry; apply Nat.eqb_neq; lia). rewrite Nat.add_0_r. auto.
          -- rewrite E3. cbn [length nth_error]. rewrite Nat.add_succ_r. cbn. reflexivity.
        * rewrite E3. auto.
      + destruct (last_idx x vs) as [k|] eqn:E3; cbn [nth_error].
        * rewrite Nat.add_succ_r. cbn.
          assert (k < length ns) by (rewrite (dll_length _ _ _ _ _ D); eapply last_idx_lt; eauto).
          destruct (nth_error ns k) eqn:E4; auto. apply nth_error_None in E4. lia.
        * destruct (oid (fst v) x); auto. rewrite Nat.add_0_r. auto.
  Qed.

  Lemma set_prio_ok : forall s ns1 a ns2 vs1 v vs2 p, lrep s (ns1 ++ a :: ns2) (vs1 ++ v :: vs2) -> length ns1 = length vs1 ->
    cnode s = Some a ->
    exists h, store (heap s) (cnode s) (set_prio A P p) = Ok h /\
      lrep (with_heap A P s h) (ns1 ++ a :: ns2) (vs1 ++ (fst v, p) :: vs2).
  Proof.
    intros s ns1 a ns2 vs1 v vs2 p [H Hc] L Ec. assert (D := r_dll _ _ _ H). apply dll_app in D; auto. destruct D as [D1 [Da D2]].
    rewrite Ec, (store_ok _ _ _ _ Da). eexists. split; [reflexivity|].
    assert (Nd := NoDup_remove_2 _ _ _ (r_nodup _ _ _ H)). rewrite in_app_iff in Nd.
    split; [|exact Hc].
    constructor; cbn [with_heap LinkedList_Model.heap LinkedList_Model.pool LinkedList_Model.fresh
          LinkedList_Model.lfirst LinkedList_Model.llast LinkedList_Model.lcount]; try apply H.
    - apply dll_app; auto. split; [|split].
      + eapply dll_frame; eauto. intros b Hb. apply put_neq. intros ->. tauto.
      + rewrite put_eq. reflexivity.
      + eapply dll_frame; eauto. intros b Hb. apply put_neq. intros ->. tauto.
    - destruct (r_pool _ _ _ H) as [P1 P2]. split; auto. intros b Hb. destruct (P2 b Hb). split; auto.
      rewrite put_neq; auto. intros ->. congruence.
    - intros b Hb. assert (Eb := r_fresh _ _ _ H b Hb). rewrite put_neq; auto. intros ->. congruence.
  Qed.

  Lemma insert_priority_ok : forall s vs x p pol, represents s vs ->
    exists s', llist_insert_priority A oid P gt pzero s x p pol = Ok (s', snd (seq_priority vs x p pol)) /\
      represents s' (fst (seq_priority vs x p pol)).
  Proof.
    intros s vs x p pol (ns & H & Hcur). unfold llist_insert_priority, LinkedList_Spec.seq_priority.
    destruct (lrep_len _ _ _ H) as [Hcnt Hl]. rewrite (r_first _ _ _ H).
    rewrite (priority_loop_ok s x p pol ns vs None); auto; try (rewrite (r_count _ _ _ H); lia); [|apply (r_dll _ _ _ H)].
    cbn [snd]. rewrite Nat.eqb_refl. cbn [obind Nat.add].
    destruct (present x vs && match pol with InsertIfNotFound => true | _ => false end) eqn:E1.
    { apply andb_true_iff in E1. destruct E1 as [-> E1]. destruct pol; try discriminate. exists s. split; auto. exists ns. split; auto. }
    set (k := length (before p vs)).
    assert (Ek : length (before p vs) + length (after p vs) = length vs)
      by (rewrite <- app_length, before_after; auto).
    destruct (split_at _ ns k) as (n1 & n2 & En & L1); [unfold k; lia|].
    assert (Ev := before_after p vs).
    (* the insertion point *)
    set (ins := match nth_error ns k with Some a => (Some a, k) | None => (llast s, lcount s) end).
    assert (Hins : snd ins = k /\ (n1 <> [] -> n2 <> [] -> fst ins = nth_error ns k)).
    { unfold ins. destruct (nth_error ns k) eqn:E; [auto|]. apply nth_error_None in E. cbn. rewrite Hcnt.
      split; [unfold k in *; lia|]. intros _ Hn2. exfalso. rewrite En, app_length in E. destruct n2; [congruence|simpl in E; lia]. }
    destruct Hins as [Hi1 Hi2].
    assert (Hlast : forall j, last_idx x vs = Some j -> exists a, nth_error ns j = Some a).
    { intros j Ej. apply last_idx_lt in Ej. destruct (nth_error ns j) eqn:E; eauto. apply nth_error_None in E. lia. }
    (* the inserting branch *)
    assert (Body : exists s',
      (do s1 <- insert_object A P pzero (with_cursor A P s (fst ins) (snd ins)) (snd ins) x;
       do h <- store (heap s1) (cnode s1) (set_prio A P p);
       let s2 := with_heap A P s1 h in
       match match last_idx x vs with Some k => match nth_error ns k with Some a => Some (a, k) | None => None end | None => None end with
       | None => Ok (s2, true)
       | Some (a, i) =>
         let i' := if snd ins <=? i then S i else i in
         do s3 <- remove_range A P (with_cursor A P s2 (Some a) i') i' 1;
         Ok (s3, true)
       end) = Ok (s', true) /\ represents s' (place x p vs)).
    { rewrite Hi1.
      assert (H0 : lrep0 (with_cursor A P s (fst ins) k) (n1 ++ n2) (before p vs ++ after p vs)).
      { rewrite Ev, <- En. apply lrep0_cursor. auto. }
      destruct (insert_ok _ n1 n2 _ _ x H0 L1) as (s1 & a & E2 & H1 & I1).
      { intros N1 N2. rewrite <- En. cbn. rewrite Hi2 by auto. split; [auto|split].
        - intros E0. rewrite E0 in En. symmetry in En. apply app_eq_nil in En. tauto.
        - intros _. cbn. rewrite En, app_length. destruct n2; [congruence|simpl; lia]. }
      rewrite L1 in E2. rewrite E2. cbn [obind].
      assert (C1 : cnode s1 = Some a).
      { destruct H1 as [_ [C1 _]]. rewrite C1, I1, nth_error_app2, Nat.sub_diag; auto. }
      destruct (set_prio_ok s1 n1 a n2 _ _ _ p H1 L1 C1) as (h & E3 & H2). rewrite E3. cbn [obind fst] in *.
      assert (R2 := ex_intro (fun ns => lrep (with_heap A P s1 h) ns (before p vs ++ (x, p) :: after p vs)) _ H2).
      assert (Hb := remove_last_idx x (before p vs)). assert (Ha := remove_last_idx x (after p vs)).
      assert (Happ := last_idx_app x (before p vs) (after p vs)). rewrite Ev in Happ. fold k in Happ.
      unfold LinkedList_Spec.place. rewrite last_idx_present.
      destruct (last_idx x (after p vs)) as [j|] eqn:Ej.
      - destruct Ha as (l1 & l2 & e & Ea1 & Ea2 & ->). rewrite Happ.
        destruct (Hlast _ Happ) as (b & Eb). rewrite Eb. cbv zeta. fold k.
        replace (k <=? k + j) with true by (symmetry; apply Nat.leb_le; lia).
        set (w := (x, p)) in *.
        assert (Hsplit : before p vs ++ w :: after p vs = (before p vs ++ w :: l1) ++ [e] ++ l2)
          by (rewrite Ea1, <- app_assoc; auto).
        rewrite Hsplit in H2.
        assert (Lb : length n2 = length (after p vs)) by (rewrite En, app_length in Hl; unfold k in *; lia).
        destruct (split_at _ n2 j) as (m1 & m2 & Em & Lm); [rewrite Lb, Ea1, app_length; lia|].
        destruct m2 as [|b' m2]; [rewrite Em, app_nil_r, Ea1 in Lb; rewrite app_length in Lb; cbn in Lb; lia|].
        assert (b' = b).
        { rewrite En, nth_error_app2 in Eb by lia. replace (k + j - length n1) with j in Eb by lia.
          rewrite Em, nth_error_app2 in Eb by lia. replace (j - length m1) with 0 in Eb by lia. cbn in Eb. congruence. }
        subst b'.
        assert (Hns : n1 ++ a :: n2 = (n1 ++ a :: m1) ++ [b] ++ m2) by (rewrite Em, <- app_assoc; auto).
        rewrite Hns in H2.
        assert (Lx : length (n1 ++ a :: m1) = S (k + j)) by (rewrite app_length; cbn; lia).
        assert (H3 := lrep_cursor _ _ _ (S (k + j)) (proj1 H2)).
        rewrite nth_error_app2, Lx, Nat.sub_diag in H3 by lia. cbn [app nth_error] in H3.
        destruct (remove_range_ok _ (n1 ++ a :: m1) [b] m2 (before p vs ++ w :: l1) [e] l2 (H3 ltac:(rewrite !app_length; cbn; lia))) as (s3 & E4 & H4); auto.
        { rewrite !app_length. cbn. unfold k in *. lia. }
        rewrite Lx in E4. cbn [length] in E4. rewrite E4. cbn [obind]. exists s3. split; auto. eexists. rewrite <- !app_assoc in H4. exact H4.
      - destruct Ha as (_ & _ & Ha). rewrite Happ. destruct (last_idx x (before p vs)) as [j|] eqn:Ej2.
        + destruct Hb as (l1 & l2 & e & Eb1 & Eb2 & ->).
          destruct (Hlast _ Happ) as (b & Eb). rewrite Eb. cbv zeta.
          assert (Hjk : j < k) by (unfold k; eapply last_idx_lt; eauto).
          replace (k <=? j) with false by (symmetry; apply Nat.leb_gt; lia).
          set (w := (x, p)) in *.
          assert (Hsplit : before p vs ++ w :: after p vs = l1 ++ [e] ++ (l2 ++ w :: after p vs))
            by (rewrite Eb1 at 1; rewrite <- app_assoc; auto).
          rewrite Hsplit in H2.
          destruct (split_at _ n1 j) as (m1 & m2 & Em & Lm); [lia|].
          destruct m2 as [|b' m2]; [rewrite Em, app_nil_r in L1; lia|].
          assert (b' = b).
          { rewrite En, nth_error_app1 in Eb by lia. rewrite Em, nth_error_app2 in Eb by lia. replace (j - length m1) with 0 in Eb by lia. cbn in Eb. congruence. }
          subst b'.
          assert (Hns : n1 ++ a :: n2 = m1 ++ [b] ++ (m2 ++ a :: n2)) by (rewrite Em, <- app_assoc; auto).
          rewrite Hns in H2.
          assert (H3 := lrep_cursor _ _ _ j (proj1 H2)).
          rewrite nth_error_app2, Lm, Nat.sub_diag in H3 by lia. cbn [app nth_error] in H3.
          destruct (remove_range_ok _ m1 [b] (m2 ++ a :: n2) l1 [e] (l2 ++ w :: after p vs) (H3 ltac:(rewrite !app_length; cbn; lia))) as (s3 & E4 & H4); auto; try lia.
          rewrite Lm in E4. cbn [length] in E4. rewrite E4. cbn [obind]. exists s3. split; auto. eexists. rewrite <- app_assoc. exact H4.
        + destruct Hb as (_ & _ & ->). exists (with_heap A P s1 h). split; auto. }
    destruct Body as (s' & EB & HB). rewrite last_idx_present in E1 |- *.
    destruct (last_idx x vs) as [j|] eqn:Ej.
    - destruct (Hlast _ eq_refl) as (b & Eb). rewrite Eb in *. destruct pol; cbn [andb] in E1; try discriminate; exists s'; auto.
    - destruct pol; cbn [fst snd]; try (exists s'; split; [exact EB|exact HB]).
      exists s. split; auto. exists ns. split; auto.
  Qed.

  (** ** Histories *)
  Notation step := (llist_step A oid P gt pzero).
  Notation run := (llist_run A oid P gt pzero).
  Notation lstep := (lstep A oid P gt pzero).
  Notation lsteps := (lsteps A oid P gt pzero).

  Lemma represents_count : forall s vs, represents s vs -> lcount s = length vs.
  Proof. intros s vs (ns & H). apply (lrep_len _ _ _ (proj1 H)). Qed.

  Lemma step_ok : forall s vs o, represents s vs -> lop_ok A P o -> (Z.of_nat (length vs) <= INT64_MAX)%Z ->
    exists s' vs' r, step s o = Ok (s', r) /\ lstep vs o vs' r /\ represents s' vs'.
  Proof.
    intros s vs o H Hok Hfit. destruct o; cbn [lop_ok] in Hok; cbn [llist_step].
    - destruct (replace_range_ok s vs loc len objects H Hok) as (s' & E & H'). rewrite E. cbn [obind]. do 3 eexists. split; [reflexivity|]. split; [constructor|auto].
    - rewrite (represents_count _ _ H). destruct (replace_range_ok s vs (Z.of_nat (length vs)) 0 objects H) as (s' & E & H'); [lia|].
      rewrite E. cbn [obind]. do 3 eexists. split; [reflexivity|]. split; [constructor|].
      replace (vs ++ plain A P pzero objects) with (seq_replace entry vs (Z.of_nat (length vs)) 0 (plain A P pzero objects)); auto.
      unfold seq_replace, valid_range. rewrite Z.add_0_r, Z.leb_refl.
      replace (0 <=? Z.of_nat (length vs))%Z with true by (symmetry; apply Z.leb_le; lia). cbn [andb Z.leb Z.compare Z.to_nat].
      unfold splice. rewrite Nat2Z.id, Nat.add_0_r, firstn_all, skipn_all, app_nil_r. rewrite Z.leb_refl. auto.
    - destruct (get_ok s vs i H) as (s' & E & H'). rewrite E. cbn [obind fst snd]. do 3 eexists. split; [reflexivity|]. split; [constructor|auto].
    - destruct (get_range_ok s vs loc len H Hok) as (s' & E & H'). rewrite E. cbn [obind fst snd]. do 3 eexists. split; [reflexivity|]. split; [constructor|auto].
    - destruct (get_priority_ok s vs i H) as (s' & E & H'). rewrite E. cbn [obind fst snd]. do 3 eexists. split; [reflexivity|]. split; [constructor|auto].
    - rewrite (represents_count _ _ H). do 3 eexists. split; [reflexivity|]. split; [constructor|auto].
    - destruct (reverse_ok s vs H) as (s' & E & H'). rewrite E. cbn [obind]. do 3 eexists. split; [reflexivity|]. split; [constructor|auto].
    - destruct (sort_ok cmp s vs Hok H) as (s' & vs' & E & H' & S1 & S2 & S3). rewrite E. cbn [obind]. exists s', vs'. eexists. split; [reflexivity|]. split; [constructor; auto|auto].
    - destruct (insert_priority_ok s vs x p pol H) as (s' & E & H'). rewrite E. cbn [obind fst snd]. do 3 eexists. split; [reflexivity|]. split; [constructor|auto].
  Qed.

  Lemma remove_last_length : forall x l, length (remove_last x l) <= length l.
  Proof. induction l as [|e l IH]; cbn; auto. destruct (_ && _); cbn; lia. Qed.

  Lemma step_length : forall vs o vs' r, lstep vs o vs' r -> (Z.of_nat (length vs') <= Z.of_nat (length vs) + inserted A P o)%Z.
  Proof.
    intros vs o vs' r H. destruct H; cbn [inserted]; try lia.
    - unfold seq_replace. destruct (valid_range entry loc len vs); [|lia]. unfold splice.
      rewrite !app_length, firstn_length, skipn_length. unfold plain. rewrite map_length. lia.
    - rewrite app_length. unfold plain. rewrite map_length. lia.
    - rewrite rev_length. lia.
    - assert (E := f_equal (@length _) H). rewrite !map_length in E. unfold LinkedList_Spec.entry in *. lia.
    - assert (G : length (place x p vs) <= S (length vs)).
      { unfold LinkedList_Spec.place. assert (E := f_equal (@length _) (before_after p vs)). rewrite app_length in E.
        assert (E1 := remove_last_length x (before p vs)). assert (E2 := remove_last_length x (after p vs)).
        destruct (present x (after p vs)); rewrite app_length; cbn [length]; lia. }
      unfold LinkedList_Spec.seq_priority. destruct pol, (present x vs); cbn [fst]; lia.
  Qed.

  Lemma inserted_nonneg : forall os, (0 <= all_inserted A P os)%Z.
  Proof. unfold all_inserted. induction os as [|o os IH]; cbn; [lia|]. destruct o; cbn [inserted]; lia. Qed.

  Lemma run_ok : forall os s vs, represents s vs -> Forall (lop_ok A P) os -> (Z.of_nat (length vs) + all_inserted A P os <= INT64_MAX)%Z ->
    exists s' vs' rs, run s os = Ok (s', rs) /\ lsteps vs os vs' rs /\ represents s' vs'.
  Proof.
    induction os as [|o os IH]; intros s vs H Hok Hfit.
    - exists s, vs, []. split; [reflexivity|]. split; [constructor|auto].
    - inversion Hok as [|? ? Ho Hos]; subst. unfold all_inserted in Hfit. cbn [map fold_right] in Hfit. fold (all_inserted A P os) in Hfit.
      assert (I := inserted_nonneg os). assert (Io : (0 <= inserted A P o)%Z) by (destruct o; cbn; lia).
      destruct (step_ok s vs o H Ho) as (s1 & vs1 & r & E1 & S1 & H1); [lia|].
      assert (L := step_length _ _ _ _ S1).
      destruct (IH s1 vs1 H1 Hos) as (s2 & vs2 & rs & E2 & S2 & H2); [lia|].
      exists s2, vs2, (r :: rs). cbn [llist_run]. rewrite E1. cbn [obind fst snd]. rewrite E2. cbn [obind fst snd].
      split; [reflexivity|]. split; [econstructor; eauto|auto].
  Qed.

  Lemma represents_shows : forall s vs, represents s vs -> llist_shows A P s vs.
  Proof.
    intros s vs H. split; [apply represents_count; auto|]. intros i.
    destruct (get_ok s vs i H) as (s1 & E1 & _). destruct (get_priority_ok s vs i H) as (s2 & E2 & _). eauto.
  Qed.

  Lemma represents_init : represents (llist_init A P) [].
  Proof. exists []. apply lrep_init. Qed.
End Proofs.
