(** Linked lists: prioritised insertion, the generic list functions, and lists
    that are the source of their own edit. *)
Require Import Coq.ZArith.ZArith Coq.Lists.List Coq.Bool.Bool Coq.Arith.Arith Coq.micromega.Lia.
Require Import Coq.Sorting.Permutation Coq.Sorting.Sorted.
Require Import Verif.Base Verif.Array_Model Verif.Array_Spec Verif.Array_Proofs Verif.Sort_Model Verif.Sort_Spec.
Require Import Verif.List_Model Verif.List_Spec Verif.List_Proofs.
Require Import Verif.LinkedList_Model Verif.LinkedList_Spec Verif.LinkedList_Proofs.
Import ListNotations.
Local Open Scope nat_scope.

Lemma nodup_parts : forall B (l1 l2 : list B), NoDup (l1 ++ l2) -> NoDup l1 /\ NoDup l2.
Proof.
  induction l1 as [|x l1 IH]; cbn; intros l2 H; [split; [constructor|auto]|].
  inversion H as [|? ? Hn Hd]; subst. destruct (IH _ Hd). split; auto. constructor; auto.
  intros Hi. apply Hn. apply in_app_iff. auto.
Qed.

(** ** The order kept by prioritised insertion *)
Section Priority.
  Variable A : Type.
  Variable oid : A -> A -> bool.
  Variable P : Type.
  Variable gt : P -> P -> bool.
  Variable pzero : P.
  Hypothesis Hoid : forall x y, oid x y = true <-> x = y.
  Hypothesis Hgt : priority_order P gt.

  Notation entry := (A * P)%type.
  Notation before := (before A P gt).
  Notation after := (after A P gt).
  Notation present := (present A oid P).
  Notation place := (place A oid P gt).
  Notation same := (same_priority A P gt).

  Definition others (x : A) (l : list entry) := filter (fun e => negb (oid (fst e) x)) l.
  Notation by_priority := (by_priority A P gt).

  Lemma present_in : forall x l, present x l = true <-> In x (map fst l).
  Proof.
    intros x l. unfold LinkedList_Spec.present. rewrite existsb_exists, in_map_iff. split.
    - intros (e & Hi & E). apply Hoid in E. eauto.
    - intros (e & E & Hi). exists e. split; auto. apply Hoid. auto.
  Qed.
  Lemma others_absent : forall x l, present x l = false -> others x l = l.
  Proof.
    unfold LinkedList_Spec.present, others. induction l as [|e l IH]; cbn; intros H; auto.
    apply orb_false_iff in H. destruct H as [-> H]. cbn. f_equal. auto.
  Qed.
  Lemma others_app : forall x l1 l2, others x (l1 ++ l2) = others x l1 ++ others x l2.
  Proof. intros. apply filter_app. Qed.
  Lemma remove_last_absent : forall x l, present x l = false -> remove_last A oid P x l = l.
  Proof.
    unfold LinkedList_Spec.present. induction l as [|e l IH]; cbn; intros H; auto.
    apply orb_false_iff in H. destruct H as [-> H]. cbn. f_equal. auto.
  Qed.
  Lemma remove_last_others : forall x l, NoDup (map fst l) -> remove_last A oid P x l = others x l.
  Proof.
    induction l as [|e l IH]; cbn [LinkedList_Spec.remove_last others filter map]; intros H; auto.
    inversion H as [|? ? Hn Hd]; subst. destruct (oid (fst e) x) eqn:E; cbn [negb andb].
    - apply Hoid in E. subst x. assert (Ep : present (fst e) l = false).
      { destruct (present (fst e) l) eqn:Ep; auto. apply present_in in Ep. tauto. }
      rewrite Ep. cbn. symmetry. apply others_absent. auto.
    - f_equal. apply IH. auto.
  Qed.

  Lemma place_others : forall x p l, NoDup (map fst l) ->
    place x p l = others x (before p l) ++ (x, p) :: others x (after p l).
  Proof.
    intros x p l Hn. assert (E := before_after A P gt p l).
    assert (Hn' := Hn). rewrite <- E in Hn'. rewrite map_app in Hn'.
    assert (Hb : NoDup (map fst (before p l))) by (apply nodup_parts in Hn'; tauto).
    assert (Ha : NoDup (map fst (after p l))) by (apply nodup_parts in Hn'; tauto).
    unfold LinkedList_Spec.place. destruct (present x (after p l)) eqn:Ep.
    - rewrite remove_last_others by auto. f_equal. symmetry. apply others_absent.
      destruct (present x (before p l)) eqn:Eb; auto. apply present_in in Ep, Eb. exfalso.
      unfold LinkedList_Spec.entry in *. clear - Hn' Ep Eb. revert Hn' Eb. generalize (map fst (before p l)). intros r. induction r as [|y r IH]; cbn; intros Hn' Eb; [tauto|].
      apply NoDup_cons_iff in Hn'. destruct Hn' as [Q1 Q2]. destruct Eb as [Eb|Eb]; [|tauto]. apply Q1. apply in_app_iff. rewrite Eb. auto.
    - rewrite remove_last_others by auto. f_equal. f_equal. symmetry. apply others_absent. auto.
  Qed.

  (** In an ordered list everything from the insertion point on has a smaller
      priority. *)
  Lemma after_smaller : forall p l, by_priority l -> Forall (fun e => gt p (snd e) = true) (after p l).
  Proof.
    induction l as [|e l IH]; cbn; intros H; [constructor|]. inversion H as [|? ? Hs Hf]; subst.
    destruct (gt p (snd e)) eqn:E; [|auto]. constructor; auto.
    eapply Forall_impl; [|exact Hf]. cbn. intros f Hfe. destruct (gt p (snd f)) eqn:Ef; auto.
    destruct Hgt as (_ & _ & T). rewrite (T _ _ _ Ef Hfe) in E. discriminate.
  Qed.
  Lemma before_not_smaller : forall p l, Forall (fun e => gt p (snd e) = false) (before p l).
  Proof. induction l as [|e l IH]; cbn; [constructor|]. destruct (gt p (snd e)) eqn:E; constructor; auto. Qed.

  Lemma sorted_filter : forall B (R : B -> B -> Prop) f l, StronglySorted R l -> StronglySorted R (filter f l).
  Proof.
    induction l as [|e l IH]; cbn; intros H; auto. inversion H; subst. destruct (f e); auto. constructor; auto.
    apply Forall_forall. intros y Hy. apply filter_In in Hy. eapply Forall_forall in H3; [exact H3|tauto].
  Qed.
  Lemma sorted_join : forall B (R : B -> B -> Prop) l1 l2, StronglySorted R l1 -> StronglySorted R l2 ->
    (forall a b, In a l1 -> In b l2 -> R a b) -> StronglySorted R (l1 ++ l2).
  Proof.
    induction l1 as [|e l1 IH]; cbn; intros l2 H1 H2 H; auto. inversion H1; subst. constructor; auto.
    apply Forall_app. split; auto. apply Forall_forall. auto.
  Qed.
  Lemma sorted_parts : forall B (R : B -> B -> Prop) l1 l2, StronglySorted R (l1 ++ l2) -> 
    StronglySorted R l1 /\ StronglySorted R l2 /\ (forall a b, In a l1 -> In b l2 -> R a b).
  Proof.
    induction l1 as [|e l1 IH]; cbn; intros l2 H; [split; [constructor|split; [auto|tauto]]|].
    inversion H as [|? ? Hs Hf]; subst. apply Forall_app in Hf. destruct Hf as [F1 F2]. destruct (IH _ Hs) as (S1 & S2 & S3).
    split; [constructor; auto|]. split; auto. intros a b [<-|Ha] Hb; auto. eapply Forall_forall in F2; eauto.
  Qed.

  Lemma place_sorted : forall x p l, NoDup (map fst l) -> by_priority l -> by_priority (place x p l).
  Proof.
    intros x p l Hn Hs. rewrite place_others by auto.
    assert (Hsp := Hs). rewrite <- (before_after A P gt p l) in Hsp. unfold LinkedList_Spec.by_priority in Hsp. apply sorted_parts in Hsp.
    destruct Hsp as (S1 & S2 & S3). assert (B := before_not_smaller p l). assert (F := after_smaller p l Hs).
    rewrite Forall_forall in B, F. destruct Hgt as (I & T & N).
    apply sorted_join.
    - apply sorted_filter. auto.
    - constructor; [apply sorted_filter; auto|]. apply Forall_forall. intros e He. apply filter_In in He. destruct He as [He _]. cbn.
      specialize (F e He). destruct (gt (snd e) p) eqn:E; auto. specialize (T _ _ _ F E). rewrite I in T. discriminate.
    - intros a b Ha Hb. apply filter_In in Ha. destruct Ha as [Ha _]. destruct Hb as [<-|Hb]; [apply B; auto|].
      apply filter_In in Hb. apply S3; tauto.
  Qed.

  Lemma place_perm : forall x p l, NoDup (map fst l) -> Permutation (place x p l) (others x l ++ [(x, p)]).
  Proof.
    intros x p l Hn. rewrite place_others by auto. rewrite <- (before_after A P gt p l) at 3. rewrite others_app, <- app_assoc.
    apply Permutation_app_head. apply Permutation_cons_append.
  Qed.

  Lemma others_nodup : forall x l, NoDup (map fst l) -> NoDup (map fst (others x l)) /\ ~ In x (map fst (others x l)).
  Proof.
    intros x l H. split.
    - induction l as [|e l IH]; cbn; auto. inversion H; subst. destruct (negb (oid (fst e) x)); auto. cbn. constructor; auto.
      intros Hi. apply H2. apply in_map_iff in Hi. destruct Hi as (f & E & Hi). apply filter_In in Hi. apply in_map_iff. exists f. tauto.
    - intros Hi. apply in_map_iff in Hi. destruct Hi as (e & E & Hi). apply filter_In in Hi. destruct Hi as [_ Hi].
      assert (oid (fst e) x = true) by (apply Hoid; auto). rewrite H0 in Hi. discriminate.
  Qed.
  Lemma others_app_nodup : forall x p l, NoDup (map fst l) -> NoDup (map fst (others x l ++ [(x, p)])).
  Proof.
    intros x p l H. destruct (others_nodup x l H) as [H1 H2]. rewrite map_app. cbn.
    eapply Permutation_NoDup; [apply Permutation_cons_append|]. constructor; auto.
  Qed.

  Lemma filter_filter : forall B (f g : B -> bool) l, filter f (filter g l) = filter g (filter f l).
  Proof. induction l as [|e l IH]; cbn; auto. destruct (f e) eqn:F, (g e) eqn:G; cbn; rewrite ?F, ?G; congruence. Qed.
  Lemma filter_none : forall B (f : B -> bool) l, (forall e, In e l -> f e = false) -> filter f l = [].
  Proof. induction l as [|e l IH]; cbn; intros H; auto. rewrite (H e) by auto. apply IH. auto. Qed.

  Lemma place_stable : forall q x p l, NoDup (map fst l) -> by_priority l ->
    filter (same q) (place x p l) = filter (same q) (others x l ++ [(x, p)]).
  Proof.
    intros q x p l Hn Hs. rewrite place_others by auto.
    rewrite <- (before_after A P gt p l) at 3. rewrite others_app, !filter_app, <- app_assoc. f_equal.
    cbn [filter]. destruct (same q (x, p)) eqn:E; [|rewrite app_nil_r; auto].
    match goal with |- _ :: ?r = _ => assert (Er : r = []) end.
    2:{ rewrite Er. auto. }
    apply filter_none. intros e He. apply filter_In in He. destruct He as [He _].
    assert (F := after_smaller p l Hs). rewrite Forall_forall in F. specialize (F e He).
    unfold same_priority in *. cbn [snd] in E. apply andb_true_iff in E. destruct E as [_ E2]. apply negb_true_iff in E2.
    destruct (gt q (snd e)) eqn:E3; auto. destruct Hgt as (_ & _ & N). rewrite (N _ _ _ E2 E3) in F. discriminate.
  Qed.

  Definition related (l acc : list entry) : Prop :=
    NoDup (map fst acc) /\ Permutation l acc /\ by_priority l /\ forall q, filter (same q) l = filter (same q) acc.

  Lemma related_present : forall x l acc, Permutation l acc -> present x l = present x acc.
  Proof.
    intros x l acc H. destruct (present x l) eqn:E1, (present x acc) eqn:E2; auto.
    - apply present_in in E1. assert (G := Permutation_in _ (Permutation_map fst H) E1). apply present_in in G. congruence.
    - apply present_in in E2. assert (G := Permutation_in _ (Permutation_sym (Permutation_map fst H)) E2). apply present_in in G. congruence.
  Qed.

  Lemma related_place : forall x p l acc, related l acc -> related (place x p l) (others x acc ++ [(x, p)]).
  Proof.
    intros x p l acc (N & Pm & S & F).
    assert (Nl : NoDup (map fst l)) by (eapply Permutation_NoDup; [apply Permutation_map, Permutation_sym, Pm|auto]).
    split; [apply others_app_nodup; auto|]. split; [|split; [apply place_sorted; auto|]].
    - rewrite place_perm by auto. apply Permutation_app_tail. unfold others.
      clear - Pm. induction Pm; cbn; auto.
      + destruct (negb _); auto.
      + destruct (negb _), (negb _); auto. apply perm_swap.
      + etransitivity; eauto.
    - intros q. rewrite place_stable by auto. rewrite !filter_app. f_equal. unfold others.
      rewrite !(filter_filter _ (same q)), F. auto.
  Qed.

  Lemma related_step : forall l acc x p pol, related l acc ->
    related (fst (seq_priority A oid P gt l x p pol)) (in_force A oid P acc [(x, p, pol)]) /\
    snd (seq_priority A oid P gt l x p pol) =
      match pol, present x acc with InsertIfNotFound, true => false | InsertIfFound, false => false | _, _ => true end.
  Proof.
    intros l acc x p pol H. unfold seq_priority. rewrite (related_present x l acc) by apply H. cbn [in_force].
    fold (others x acc). assert (G := related_place x p l acc H).
    destruct pol, (present x acc); cbn [fst snd]; auto.
  Qed.

  Notation as_op := (as_op A P).

  Lemma related_run : forall os l acc l' rs, related l acc -> lsteps A oid P gt pzero l (map as_op os) l' rs ->
    related l' (in_force A oid P acc os) /\ rs = map (RBool A P) (accepted oid acc os).
  Proof.
    induction os as [|[[x p] pol] os IH]; intros l acc l' rs H Hs; inversion Hs; subst.
    - cbn. auto.
    - match goal with K : lsteps _ _ _ _ _ _ (map as_op os) _ _ |- _ => rename K into Hrest end.
      match goal with K : lstep _ _ _ _ _ _ _ _ _ |- _ => inversion K; subst; clear K end.
      destruct (related_step l acc x p pol H) as [H1 H2]. cbn [fst snd as_op] in *.
      destruct (IH _ _ _ _ H1 Hrest) as [H3 H7]. split; [exact H3|]. cbn [accepted map]. rewrite H2. f_equal. exact H7.
  Qed.

  Lemma priority_inserted : forall os, all_inserted A P (map as_op os) = Z.of_nat (length os).
  Proof. unfold all_inserted. induction os as [|o os IH]; [reflexivity|]. cbn [map fold_right inserted as_op length]. rewrite IH. lia. Qed.

  Lemma priority_history : forall os, (Z.of_nat (length os) <= INT64_MAX)%Z ->
    exists s l, llist_run A oid P gt pzero (llist_init A P) (map as_op os) =
        Ok (s, map (RBool A P) (accepted oid [] os)) /\ llist_shows A P s l /\
      NoDup (map fst l) /\ by_priority l /\ Permutation l (in_force A oid P [] os) /\
      forall p, filter (same p) l = filter (same p) (in_force A oid P [] os).
  Proof.
    intros os Hlen. destruct (run_ok A oid P gt pzero (map as_op os) (llist_init A P) []) as (s & l & rs & E & Hs & Hr).
    - apply (represents_init A P).
    - apply Forall_forall. intros o Ho. apply in_map_iff in Ho. destruct Ho as (y & <- & _). exact I.
    - rewrite priority_inserted. cbn. lia.
    - destruct (related_run os [] [] l rs) as [(R1 & R2 & R3 & R4) R5]; auto.
      + split; [constructor|]. split; [auto|]. split; [constructor|auto].
      + exists s, l. rewrite E, R5. split; [auto|]. split; [apply (represents_shows A P gt pzero); auto|].
        split; [|auto]. eapply Permutation_NoDup; [apply Permutation_map, Permutation_sym, R2|auto].
  Qed.
End Priority.

(** ** The generic list functions on linked lists *)
Section Generic.
  Variable A : Type.
  Variable null : A.
  Variable oid : A -> A -> bool.
  Variable P : Type.
  Variable gt : P -> P -> bool.
  Variable pzero : P.
  Variable oeq : A -> A -> bool.
  Variable ocmp : A -> A -> Z.
  Notation LI := (llist_interface A P pzero).

  Definition holds (s : llist A P) (l : list A) : Prop := exists vs, represents A P s vs /\ map fst vs = l.

  Lemma map_splice : forall B C (f : B -> C) l loc len new,
    map f (splice B l loc len new) = splice C (map f l) loc len (map f new).
  Proof. intros. unfold splice. rewrite !map_app, firstn_map, skipn_map. auto. Qed.

  Lemma llist_implements : implements A LI holds.
  Proof.
    constructor; cbn [llist_interface getCount getObjectAtIndex replaceRangeWithCArray].
    - intros s l (vs & H & <-). rewrite map_length. exact (represents_count A P gt pzero _ _ H).
    - intros s l i (vs & H & <-). destruct (get_ok A P gt pzero s vs i H) as (s' & E & H'). exists s'. split; [exact E|]. exists vs. auto.
    - intros s l loc len new (vs & H & <-) Hfit. destruct (replace_range_ok A P gt pzero s vs loc len new H Hfit) as (s' & E & H').
      exists s'. split; auto. eexists. split; [exact H'|]. unfold seq_replace, valid_range. rewrite map_length.
      unfold entry in *. destruct (_ && _ && _)%bool; auto. rewrite map_splice. f_equal. unfold plain. rewrite map_map. cbn. apply map_id.
  Qed.

  Lemma shows_unique : forall s l l', llist_shows A P s l -> llist_shows A P s l' -> l = l'.
  Proof.
    intros s l l' [C1 H1] [C2 H2]. assert (Hl : length l = length l') by congruence.
    assert (E : forall i, nth_error (map fst l) i = nth_error (map fst l') i /\ nth_error (map snd l) i = nth_error (map snd l') i).
    { intros i. destruct (H1 (Z.of_nat i)) as (a & b & E1 & E2). destruct (H2 (Z.of_nat i)) as (c & d & E3 & E4).
      assert (E0 : (0 <=? Z.of_nat i)%Z = true) by (apply Z.leb_le; lia). rewrite E0, Nat2Z.id in *.
      rewrite E1 in E3. rewrite E2 in E4. inversion E3. inversion E4. auto. }
    clear - E Hl. revert l' E Hl. induction l as [|e l IH]; destruct l' as [|e' l']; intros E Hl; try discriminate; auto.
    f_equal.
    - destruct (E 0) as [E1 E2]. cbn in E1, E2. destruct e, e'. cbn in *. congruence.
    - apply IH; [|cbn in Hl; lia]. intros i. apply (E (S i)).
  Qed.

  Notation made_by := (made_by A oid P gt pzero).
  Notation objects_shown := (objects_shown A P).

  Lemma lsteps_length : forall os l l' rs, lsteps A oid P gt pzero l os l' rs ->
    (Z.of_nat (length l') <= Z.of_nat (length l) + all_inserted A P os)%Z.
  Proof.
    unfold all_inserted. intros os l l' rs H. induction H; cbn [map fold_right]; [lia|].
    apply step_length in H. lia.
  Qed.

  Lemma made_by_represents : forall os s l, made_by os s l ->
    represents A P s l /\ (Z.of_nat (length l) <= INT64_MAX)%Z.
  Proof.
    intros os s l (Hok & Hfit & (rs & E) & Hs).
    destruct (run_ok A oid P gt pzero os (llist_init A P) [] (represents_init A P) Hok) as (s' & l' & rs' & E' & St & Hr); [exact Hfit|].
    rewrite E in E'. inversion E'; subst. 
    rewrite (shows_unique _ _ _ Hs (represents_shows A P gt pzero _ _ Hr)). split; auto.
    apply lsteps_length in St. cbn in St. lia.
  Qed.
  Lemma made_by_holds : forall os s l, made_by os s l -> holds s (map fst l) /\ (Z.of_nat (length (map fst l)) <= INT64_MAX)%Z.
  Proof. intros os s l H. destruct (made_by_represents _ _ _ H). rewrite map_length. split; [exists l; auto|auto]. Qed.

  Lemma history : forall os, Forall (lop_ok A P) os -> (all_inserted A P os <= INT64_MAX)%Z ->
    exists s l rs, llist_run A oid P gt pzero (llist_init A P) os = Ok (s, rs) /\
      lsteps A oid P gt pzero [] os l rs /\ llist_shows A P s l.
  Proof.
    intros os Hok Hfit.
    destruct (run_ok A oid P gt pzero os (llist_init A P) [] (represents_init A P) Hok) as (s & l & rs & E & St & Hr); [exact Hfit|].
    exists s, l, rs. split; auto. split; auto. apply (represents_shows A P gt pzero). auto.
  Qed.

  Lemma holds_shown : forall s l, holds s l -> objects_shown s l.
  Proof. intros s l (vs & H & E). exists vs. split; auto. apply (represents_shows A P gt pzero). auto. Qed.

  Lemma llist_search : forall os s vs x, made_by os s vs -> let l := map fst vs in
    (exists s' r, list_first_index A null oeq _ LI s x = Ok (s', r) /\ objects_shown s' l /\
       match r with Some i => is_first_index A oeq l x i | None => ~ occurs A oeq l x end) /\
    (exists s' r, list_last_index A null oeq _ LI s x = Ok (s', r) /\ objects_shown s' l /\
       match r with Some i => is_last_index A oeq l x i | None => ~ occurs A oeq l x end) /\
    (exists s', list_count_of_object A null oeq _ LI s x = Ok (s', occurrences A oeq l x) /\ objects_shown s' l) /\
    (exists s' b, list_contains A null oeq _ LI s x = Ok (s', b) /\ objects_shown s' l /\ (b = true <-> occurs A oeq l x)) /\
    (exists s', list_remove_object A null oeq _ LI s x = Ok s' /\ objects_shown s' (without A oeq l x)) /\
    (exists s' l', list_add_to_set A null oeq _ LI s x = Ok s' /\ objects_shown s' l' /\
       ((occurs A oeq l x /\ l' = l) \/ (~ occurs A oeq l x /\ l' = l ++ [x]))).
  Proof.
    intros os s vs x H l. destruct (made_by_holds _ _ _ H) as [Hr Hl]. fold l in Hr, Hl.
    assert (imp := llist_implements).
    destruct (first_ok A null oeq _ LI holds imp s l x Hr) as (s1 & r1 & E1 & H1 & P1).
    destruct (last_ok A null oeq _ LI holds imp s l x Hr) as (s2 & r2 & E2 & H2 & P2).
    destruct (count_ok A null oeq _ LI holds imp s l x Hr) as (s3 & E3 & H3).
    destruct (contains_ok A null oeq _ LI holds imp s l x Hr) as (s4 & b & E4 & H4 & P4).
    destruct (remove_ok A null oeq _ LI holds imp s l x Hr Hl) as (s5 & E5 & P5).
    destruct (add_to_set_ok A null oeq _ LI holds imp s l x Hr Hl) as (s6 & l6 & E6 & P6 & Q6).
    split; [exists s1, r1; split; [auto|split; [apply holds_shown; auto|auto]]|].
    split; [exists s2, r2; split; [auto|split; [apply holds_shown; auto|auto]]|].
    split; [exists s3; split; [auto|apply holds_shown; auto]|].
    split; [exists s4, b; split; [auto|split; [apply holds_shown; auto|auto]]|].
    split; [exists s5; split; [auto|apply holds_shown; auto]|].
    exists s6, l6. split; [auto|]. split; [apply holds_shown; auto|auto].
  Qed.

  Lemma llist_ends : forall os s vs x, made_by os s vs -> let l := map fst vs in
    (exists s', list_remove_first A _ LI s = Ok s' /\ objects_shown s' (tl l)) /\
    (exists s', list_remove_last A _ LI s = Ok s' /\ objects_shown s' (removelast l)) /\
    (exists s' y, list_get_member A null oeq _ LI s x = Ok (s', y) /\ objects_shown s' l /\
       ((exists i, is_first_index A oeq l x i /\ nth_error l (Z.to_nat i) = Some y) \/ (~ occurs A oeq l x /\ y = null))).
  Proof.
    intros os s vs x H l. destruct (made_by_holds _ _ _ H) as [Hr Hl]. fold l in Hr, Hl.
    assert (imp := llist_implements).
    destruct (remove_ends_ok A _ LI holds imp s l Hr Hl) as [(s1 & E1 & P1) (s2 & E2 & P2)].
    destruct (get_member_ok A null oeq _ LI holds imp s l x Hr) as (s3 & y & E3 & P3 & Q3).
    split; [exists s1; split; [auto|apply holds_shown; auto]|].
    split; [exists s2; split; [auto|apply holds_shown; auto]|].
    exists s3, y. split; [auto|split; [apply holds_shown; auto|auto]].
  Qed.

  Lemma llist_equality : forall os1 os2 s1 s2 vs1 vs2, made_by os1 s1 vs1 -> made_by os2 s2 vs2 ->
    let l1 := map fst vs1 in let l2 := map fst vs2 in
    (exists b, list_equal A null oeq LI LI s1 s2 = Ok b /\ (b = true <-> pairwise_equal A oeq l1 l2)) /\
    (length l1 = length l2 ->
       exists c, list_compare A null ocmp _ LI s1 s2 = Ok c /\
        (c = 0%Z <-> Forall2 (fun x y => ocmp x y = 0%Z) l1 l2) /\
        (c <> 0%Z -> exists q1 q2 x y r1 r2, l1 = q1 ++ x :: r1 /\ l2 = q2 ++ y :: r2 /\
           Forall2 (fun x y => ocmp x y = 0%Z) q1 q2 /\ c = ocmp x y)).
  Proof.
    intros os1 os2 s1 s2 vs1 vs2 H1 H2 l1 l2.
    destruct (made_by_holds _ _ _ H1) as [R1 _]. destruct (made_by_holds _ _ _ H2) as [R2 _].
    split.
    - eapply equal_ok; eauto using llist_implements.
    - intros Hl. eapply compare_ok; eauto using llist_implements.
  Qed.

  (** An array and a linked list. *)
  Lemma mixed_equality : forall os1 a rs os2 s vs, fits A [] os1 -> array_run A null array_init os1 = Ok (a, rs) ->
    made_by os2 s vs ->
    let l1 := fst (seq_run A [] os1) in let l2 := map fst vs in
    (exists b, list_equal A null oeq (array_interface A null) LI a s = Ok b /\ (b = true <-> pairwise_equal A oeq l1 l2)) /\
    (exists b, list_equal A null oeq LI (array_interface A null) s a = Ok b /\ (b = true <-> pairwise_equal A oeq l2 l1)).
  Proof.
    intros os1 a rs os2 s vs Hf Ha H l1 l2.
    destruct (made_by_holds _ _ _ H) as [R _]. destruct (run_ainv A null os1 a rs Hf Ha) as [_ R1].
    split; eapply equal_ok; eauto using llist_implements, (array_implements A null).
  Qed.

  Lemma llist_enumeration : forall os s vs, made_by os s vs ->
    forall S (cb : S -> A -> S * bool) (visit : S -> list A -> S * bool),
      (forall s, visit s [] = (s, false)) ->
      (forall s x l, visit s (x :: l) = let (s', stop) := cb s x in if stop then (s', true) else visit s' l) ->
      forall st, llist_apply A P cb st s = Ok (visit st (map fst vs)).
  Proof.
    intros os s vs H S cb visit V1 V2 st. destruct (made_by_represents _ _ _ H). apply (apply_ok A P gt pzero); auto.
  Qed.

  (** ** A list as the source of its own edit *)
  (** Inserting behind the node being read: the next node always exists. *)
  Lemma copy_self_forever : forall fuel s ns vs k index, lrep A P s ns vs -> k < index -> index <= length vs ->
    copy_from_self A P pzero fuel s (nth_error ns k) index = NoFuel.
  Proof.
    induction fuel as [|fuel IH]; intros s ns vs k index H Hk Hi; [reflexivity|].
    destruct (lrep_len A P gt pzero _ _ _ (proj1 H)) as [_ Hl].
    destruct (nth_error ns k) as [a|] eqn:Ea; [|apply nth_error_None in Ea; lia].
    cbn [copy_from_self].
    destruct (dll_nth A P gt pzero _ _ _ _ _ _ (r_dll _ _ _ _ _ (proj1 H)) Ea) as (v & Ev & Eh).
    rewrite (load_ok A P _ _ _ Eh). cbn [obind nobj].
    destruct (split_at _ ns index) as (n1 & n2 & -> & L1); [lia|].
    destruct (split_at _ vs index) as (v1 & v2 & -> & L2); [lia|].
    destruct (insert_ok A P gt pzero s n1 n2 v1 v2 (fst v) (proj1 H)) as (s' & b & E & H' & _); [lia|intros; apply H|].
    rewrite L1 in E. rewrite E. cbn [obind].
    rewrite nth_error_app1 in Ea by lia.
    assert (Ea' : nth_error (n1 ++ b :: n2) k = Some a) by (rewrite nth_error_app1; auto; lia).
    destruct (dll_nth A P gt pzero _ _ _ _ _ _ (r_dll _ _ _ _ _ (proj1 H')) Ea') as (v' & Ev' & Eh').
    rewrite (load_ok A P _ _ _ Eh'). cbn [obind nnext].
    destruct (lrep_len A P gt pzero _ _ _ (proj1 H')) as [_ Hl'].
    match goal with |- copy_from_self _ _ _ _ _ ?p _ = _ =>
      replace p with (nth_error (n1 ++ b :: n2) (S k)) end.
    - eapply IH; eauto; try lia. rewrite <- Hl', !app_length. cbn. lia.
    - destruct (nth_error (n1 ++ b :: n2) (S k)) eqn:E1; auto.
  Qed.

  (** Inserting in front of the node being read: every node is read once. *)
  Lemma copy_self_front : forall vs2 vs1 fuel s m n1 n2, length vs2 < fuel -> length m = length n1 ->
    length n1 = length vs1 ->
    lrep A P s (m ++ n1 ++ n2) (plain A P pzero (map fst vs1) ++ vs1 ++ vs2) ->
    exists s', copy_from_self A P pzero fuel s (hdo None n2) (length m) = Ok s' /\
      represents A P s' (plain A P pzero (map fst (vs1 ++ vs2)) ++ vs1 ++ vs2).
  Proof.
    induction vs2 as [|v vs2 IH]; intros vs1 fuel s m n1 n2 Hf L1 L2 H; (destruct fuel as [|fuel]; [cbn in Hf; lia|]);
      destruct (lrep_len A P gt pzero _ _ _ (proj1 H)) as [_ Hl]; rewrite !app_length in Hl; unfold plain in Hl at 1; rewrite !map_length in Hl.
    - destruct n2; [|cbn in Hl; lia]. cbn [hdo copy_from_self]. exists s. split; auto. exists (m ++ n1 ++ []). rewrite !app_nil_r in *. exact H.
    - destruct n2 as [|a n2]; [cbn in Hl; lia|]. cbn [hdo copy_from_self].
      assert (Ea : nth_error (m ++ n1 ++ a :: n2) (length (m ++ n1)) = Some a)
        by (rewrite app_assoc, nth_error_app2, Nat.sub_diag; auto).
      destruct (dll_nth A P gt pzero _ _ _ _ _ _ (r_dll _ _ _ _ _ (proj1 H)) Ea) as (w & Ew & Eh).
      rewrite (load_ok A P _ _ _ Eh). cbn [obind nobj].
      assert (w = v).
      { rewrite app_assoc, nth_error_app2 in Ew; rewrite !app_length in *; unfold plain in *; rewrite ?map_length in *; [|lia].
        replace (length m + length n1 - (length vs1 + length vs1)) with 0 in Ew by lia. cbn in Ew. congruence. }
      subst w.
      destruct (insert_ok A P gt pzero s m (n1 ++ a :: n2) (plain A P pzero (map fst vs1)) (vs1 ++ v :: vs2) (fst v) (proj1 H)) as (s' & b & E & H' & _).
      { unfold plain. rewrite !map_length. lia. }
      { intros; apply H. }
      rewrite E. cbn [obind].
      assert (Ea' : nth_error (m ++ b :: n1 ++ a :: n2) (S (length (m ++ n1))) = Some a).
      { change (b :: n1 ++ a :: n2) with ((b :: n1) ++ a :: n2). rewrite app_assoc, nth_error_app2; rewrite !app_length; cbn [length]; [|lia].
        replace (S (length m + length n1) - (length m + S (length n1))) with 0 by lia. auto. }
      destruct (dll_nth A P gt pzero _ _ _ _ _ _ (r_dll _ _ _ _ _ (proj1 H')) Ea') as (v' & Ev' & Eh').
      rewrite (load_ok A P _ _ _ Eh'). cbn [obind nnext].
      assert (En : nth_error (m ++ b :: n1 ++ a :: n2) (S (S (length (m ++ n1)))) = hdo None n2).
      { change (b :: n1 ++ a :: n2) with ((b :: n1) ++ a :: n2). rewrite app_assoc, nth_error_app2; rewrite !app_length; cbn [length]; [|lia].
        replace (S (S (length m + length n1)) - (length m + S (length n1))) with 1 by lia. cbn [nth_error]. destruct n2; auto. }
      rewrite En. clear En.
      destruct (IH (vs1 ++ [v]) fuel s' (m ++ [b]) (n1 ++ [a]) n2) as (s2 & E2 & H2).
      + cbn in Hf. lia.
      + rewrite !app_length. cbn. lia.
      + rewrite !app_length. cbn. lia.
      + unfold plain in *. rewrite map_app, map_app, <- !app_assoc. cbn [map app]. exact H'.
      + rewrite app_length in E2. cbn [length] in E2. rewrite Nat.add_1_r in E2. exists s2. split; auto.
        rewrite <- !app_assoc in H2. exact H2.
  Qed.

  Lemma llist_self_insertion : forall os s vs, made_by os s vs ->
    (forall loc len, valid_range (entry A P) loc len vs = true -> (0 < loc)%Z ->
       forall fuel, llist_replace_range_with_self A P pzero fuel s loc len = NoFuel) /\
    (exists s', llist_replace_range_with_self A P pzero (S (length vs)) s 0 0 = Ok s' /\
       objects_shown s' (map fst vs ++ map fst vs)).
  Proof.
    intros os s vs H. destruct (made_by_represents _ _ _ H) as [[ns Hr] Hfit]. destruct (lrep_len A P gt pzero _ _ _ (proj1 Hr)) as [Hc Hl].
    split.
    - intros loc len V Hloc fuel. unfold llist_replace_range_with_self.
      rewrite Hc, (check_range_ok (entry A P)) by (unfold valid_range in V; lia). rewrite V. cbn [obind].
      assert (V' := valid_range_facts _ _ _ _ V).
      destruct (list_split3 _ vs _ _ V') as (v1 & v2 & v3 & -> & Lv1 & Lv2).
      destruct (list_split3 _ ns (Z.to_nat loc) (Z.to_nat len)) as (n1 & n2 & n3 & -> & Ln1 & Ln2); [lia|].
      destruct (remove_range_ok A P gt pzero s n1 n2 n3 v1 v2 v3 Hr) as (s1 & E1 & H1); try lia.
      rewrite Ln1, Ln2 in E1. rewrite E1. cbn [obind].
      rewrite (r_first _ _ _ _ _ (proj1 H1)), hdo_nth. eapply copy_self_forever; eauto; [lia|]. rewrite app_length. lia.
    - unfold llist_replace_range_with_self. rewrite Hc, (check_range_ok (entry A P)) by (vm_compute; discriminate).
      assert (V : valid_range (entry A P) 0 0 vs = true) by (unfold valid_range; apply andb_true_iff; split; [reflexivity|apply Z.leb_le; cbn; lia]).
      rewrite V. cbn [obind Z.to_nat].
      destruct (remove_range_ok A P gt pzero s [] [] ns [] [] vs Hr) as (s1 & E1 & H1); auto. cbn [length] in E1. rewrite E1. cbn [obind].
      rewrite (r_first _ _ _ _ _ (proj1 H1)).
      destruct (copy_self_front vs [] (S (length vs)) s1 [] [] ns) as (s2 & E2 & H2); auto.
      cbn [length app] in E2. exists s2. split; auto. apply holds_shown. eexists. split; [exact H2|].
      cbn [app]. unfold plain. rewrite map_app, !map_map. cbn. auto.
  Qed.

  Lemma llist_shuffle_undefined : forall os s vs, made_by os s vs -> 1 < length vs -> llist_shuffle A P s = UB.
  Proof.
    intros os s vs H Hl. destruct (made_by_represents _ _ _ H) as [Hr _]. unfold llist_shuffle.
    rewrite (represents_count A P gt pzero _ _ Hr). apply Nat.ltb_lt in Hl. rewrite Hl. auto.
  Qed.
End Generic.

Lemma made_case :
  exists s, made_by nat Nat.eqb Z Z.gtb 0%Z [LAppend nat Z [4; 6; 4]] s [(4, 0%Z); (6, 0%Z); (4, 0%Z)].
Proof.
  destruct (run_ok nat Nat.eqb Z Z.gtb 0%Z [LAppend nat Z [4; 6; 4]] (llist_init nat Z) []) as (s & l & rs & E & Hs & Hr).
  - apply represents_init.
  - repeat constructor.
  - vm_compute. discriminate.
  - exists s. split; [repeat constructor|]. split; [vm_compute; discriminate|]. split; [eauto|].
    inversion Hs; subst. repeat match goal with K : lsteps _ _ _ _ _ _ [] _ _ |- _ => inversion K; subst; clear K | K : lstep _ _ _ _ _ _ _ _ _ |- _ => inversion K; subst; clear K end.
    apply (represents_shows nat Z Z.gtb 0%Z). exact Hr.
Qed.
