Require Import Coq.NArith.NArith Coq.Lists.List Coq.Bool.Bool Coq.micromega.Lia.
Require Import Coq.Sorting.Permutation.
Require Import Verif.Base Verif.HashTable_Model Verif.HashTable_Spec Verif.HashTable_Proofs.
Require Import Verif.SetDict_Model Verif.SetDict_Spec.
Import ListNotations.

Lemma foreach_ok : forall A (cb : A -> outcome bool) (f : A -> bool) l b,
  (forall a b, In a l -> cb a = Ok b -> b = f a) ->
  foreach cb l = Ok b -> b = existsb f l.
Proof.
  induction l; simpl; intros b Hcb H.
  - inversion H. auto.
  - apply obind_ok in H. destruct H as (c & Hc & H). rewrite <- (Hcb a c) by auto.
    destruct c; [inversion H; auto|]. simpl. apply IHl; auto.
Qed.

Section Sets.
  Variable K : Type.
  Variable hash : K -> N.
  Variable keq : K -> K -> bool.
  Hypothesis Hequiv : equivalence K keq.
  Hypothesis Hhash : hash_respects K keq hash.

  Notation tset := (table K K).
  Notation refines := (refines K K hash keq).

  Definition amem (m : list (K * K)) (x : K) : bool := existsb (fun e => keq (fst e) x) m.

  (** Key and object of every row are equal. *)
  Definition diag (m : list (K * K)) : Prop := forall e, In e m -> keq (fst e) (snd e) = true.

  Lemma amem_get : forall m x, amem m x = match amap_get K K keq m x with Some _ => true | None => false end.
  Proof.
    induction m; simpl; intros; auto. unfold amap_get in *. simpl.
    destruct (keq (fst a) x); simpl; auto.
  Qed.

  Lemma amem_perm : forall m m' x, Permutation m m' -> amem m x = amem m' x.
  Proof.
    induction 1; simpl; auto; try congruence.
    rewrite !orb_assoc. f_equal. apply orb_comm.
  Qed.

  Lemma amem_insert : forall m k v p x, amem (amap_insert K K keq m k v p) x =
    amem m x || (match p with InsertIfFound => false | _ => keq k x end).
  Proof.
    assert (Hov : forall m k v x, amem (amap_overwrite K K keq m k v) x = amem m x).
    { induction m; simpl; intros; auto. rewrite IHm. f_equal. destruct (keq (fst a) k); auto. }
    assert (Hget : forall m k x e, amap_get K K keq m k = Some e -> keq k x = true -> amem m x = true).
    { intros m k x e H Hk. apply find_some in H. destruct H. apply existsb_exists. exists e. split; auto.
      eapply keq_trans; eauto. }
    intros. destruct p; simpl.
    - unfold amap_set. destruct (amap_get K K keq m k) eqn:E.
      + rewrite Hov. destruct (keq k x) eqn:Ek; [|rewrite orb_false_r; auto].
        rewrite (Hget _ _ _ _ E Ek). auto.
      + simpl. apply orb_comm.
    - unfold amap_replace. rewrite Hov, orb_false_r. auto.
    - unfold amap_add. destruct (amap_get K K keq m k) eqn:E.
      + destruct (keq k x) eqn:Ek; [|rewrite orb_false_r; auto]. rewrite (Hget _ _ _ _ E Ek). auto.
      + simpl. apply orb_comm.
  Qed.

  Lemma diag_insert : forall m k p, diag m -> diag (amap_insert K K keq m k k p).
  Proof.
    assert (Hov : forall m k, diag m -> diag (amap_overwrite K K keq m k k)).
    { intros m k H e He. unfold amap_overwrite in He. apply in_map_iff in He.
      destruct He as (e0 & <- & Hin). destruct (keq (fst e0) k) eqn:E; simpl; auto. }
    intros m k p H. destruct p; simpl.
    - unfold amap_set. destruct (amap_get K K keq m k); auto.
      intros e [<-|He]; simpl; auto. apply keq_refl; auto.
    - apply Hov; auto.
    - unfold amap_add. destruct (amap_get K K keq m k); auto.
      intros e [<-|He]; simpl; auto. apply keq_refl; auto.
  Qed.

  Lemma amem_remove : forall m k x, amem (amap_remove K K keq m k) x = amem m x && negb (keq k x).
  Proof.
    induction m; simpl; intros; auto.
    destruct (keq (fst a) k) eqn:E; simpl.
    - rewrite IHm. rewrite (keq_cong_l _ _ Hequiv (fst a) k x E).
      destruct (keq k x); simpl; auto. rewrite !andb_false_r. auto.
    - rewrite IHm. destruct (keq (fst a) x) eqn:E2; simpl; auto.
      symmetry. apply negb_true_iff. destruct (keq k x) eqn:E3; auto.
      rewrite (keq_sym _ _ Hequiv) in E3.
      rewrite (keq_trans _ _ Hequiv _ _ _ E2 E3) in E. discriminate.
  Qed.

  Lemma diag_remove : forall m k, diag m -> diag (amap_remove K K keq m k).
  Proof. intros m k H e He. apply filter_In in He. apply H. tauto. Qed.

  (** [t] is the set with membership function [f]. *)
  Definition is_set (t : tset) (f : K -> bool) : Prop :=
    exists m, refines t m /\ diag m /\ forall x, amem m x = f x.

  Lemma is_set_insert : forall t f x p t' b, is_set t f ->
    insert K K hash keq t x x p = Ok (t', b) -> p <> InsertIfFound -> is_set t' (fun y => f y || keq x y).
  Proof.
    intros t f x p t' b (m & Hr & Hd & Hf) H Hp.
    apply (insert_refines _ _ _ _ Hequiv Hhash _ _ _ _ _ _ _ Hr) in H. destruct H as [H _].
    exists (amap_insert K K keq m x x p). split; auto. split; [apply diag_insert; auto|].
    intros. rewrite amem_insert, Hf. destruct p; auto. congruence.
  Qed.

  Lemma set_add_ok : forall t f x t', is_set t f -> set_add K hash keq t x = Ok t' -> is_set t' (fun y => f y || keq x y).
  Proof.
    intros. unfold set_add in H0. apply obind_ok in H0. destruct H0 as ([t1 b] & H1 & H2).
    inversion H2; subst. eapply is_set_insert; eauto. discriminate.
  Qed.
  Lemma set_init_add_ok : forall t f x t', is_set t f -> set_init_add K hash keq t x = Ok t' -> is_set t' (fun y => f y || keq x y).
  Proof.
    intros. unfold set_init_add in H0. apply obind_ok in H0. destruct H0 as ([t1 b] & H1 & H2).
    inversion H2; subst. eapply is_set_insert; eauto. discriminate.
  Qed.
  Lemma set_remove_ok : forall t f x t', is_set t f -> set_remove K hash keq t x = Ok t' -> is_set t' (fun y => f y && negb (keq x y)).
  Proof.
    intros t f x t' (m & Hr & Hd & Hf) H.
    apply (remove_refines _ _ _ _ Hequiv Hhash _ _ _ _ Hr) in H.
    exists (amap_remove K K keq m x). split; auto. split; [apply diag_remove; auto|].
    intros. rewrite amem_remove, Hf. auto.
  Qed.
  Lemma is_set_ext : forall t f g, is_set t f -> (forall x, f x = g x) -> is_set t g.
  Proof. intros t f g (m & A & B & C) H. exists m. split; auto. split; auto. intros. rewrite C. auto. Qed.

  (** Membership in the enumeration. *)
  Definition omem (t : tset) (x : K) : bool := existsb (fun o => keq o x) (set_objects t).

  Lemma is_set_omem : forall t f x, is_set t f -> omem t x = f x.
  Proof.
    intros t f x (m & Hr & Hd & Hf). rewrite <- Hf. unfold omem, set_objects.
    destruct Hr as [Hi Hp].
    rewrite <- (amem_perm _ _ x Hp). unfold amem.
    assert (Hd' : diag (enumerate t)).
    { intros e He. apply Hd. eapply Permutation_in; eauto. }
    clear - Hd' Hequiv. induction (enumerate t); simpl; auto.
    rewrite IHl by (intros e He; apply Hd'; right; auto). f_equal.
    assert (H : keq (fst a) (snd a) = true) by (apply Hd'; left; auto).
    symmetry. apply (keq_cong_l _ _ Hequiv); auto.
  Qed.

  Lemma union_ok : forall l t f t', is_set t f -> foreach_state (set_add K hash keq) t l = Ok t' ->
    is_set t' (fun y => f y || existsb (fun o => keq o y) l).
  Proof.
    induction l; simpl; intros t f t' Hs H.
    - inversion H; subst. eapply is_set_ext; eauto. intros. rewrite orb_false_r. auto.
    - apply obind_ok in H. destruct H as (t1 & H1 & H2).
      apply (set_add_ok _ _ _ _ Hs) in H1. apply (IHl _ _ _ H1) in H2.
      eapply is_set_ext; eauto. intros. simpl. rewrite orb_assoc. auto.
  Qed.

  Lemma minus_ok : forall l t f t', is_set t f -> foreach_state (set_remove K hash keq) t l = Ok t' ->
    is_set t' (fun y => f y && negb (existsb (fun o => keq o y) l)).
  Proof.
    induction l; simpl; intros t f t' Hs H.
    - inversion H; subst. eapply is_set_ext; eauto. intros. rewrite andb_true_r. auto.
    - apply obind_ok in H. destruct H as (t1 & H1 & H2).
      apply (set_remove_ok _ _ _ _ Hs) in H1. apply (IHl _ _ _ H1) in H2.
      eapply is_set_ext; eauto. intros. simpl. rewrite negb_orb, andb_assoc. auto.
  Qed.

  Lemma build_ok : forall e t, build K hash keq e = Ok t -> is_set t (denote K keq e).
  Proof.
    induction e; simpl; intros t H.
    - inversion H; subst. exists []. split; [apply refines_init|]. split; [intros e []|auto].
    - apply obind_ok in H. destruct H as (t1 & H1 & H2).
      eapply is_set_ext; [eapply set_init_add_ok; eauto|]. intros. apply orb_comm.
    - apply obind_ok in H. destruct H as (t1 & H1 & H2).
      eapply is_set_ext; [eapply set_add_ok; eauto|]. intros. apply orb_comm.
    - apply obind_ok in H. destruct H as (t1 & H1 & H2).
      eapply is_set_ext; [eapply set_remove_ok; eauto|]. intros. auto.
    - apply obind_ok in H. destruct H as (t1 & H1 & H2). inversion H2; subst.
      destruct (IHe _ H1) as (m & Hr & _).
      exists []. split; [eapply remove_all_refines; eauto|]. split; [intros ? []|auto].
    - apply obind_ok in H. destruct H as (t1 & H1 & H2). apply obind_ok in H2. destruct H2 as (t2 & H2 & H3).
      eapply is_set_ext; [eapply union_ok; eauto|]. intros. simpl. f_equal. apply (is_set_omem t2); auto.
    - apply obind_ok in H. destruct H as (t1 & H1 & H2). apply obind_ok in H2. destruct H2 as (t2 & H2 & H3).
      eapply is_set_ext; [eapply minus_ok; eauto|]. intros. simpl. f_equal. f_equal. apply (is_set_omem t2); auto.
  Qed.

  Lemma contains_ok : forall t f x b, is_set t f -> set_contains K hash keq t x = Ok b -> b = f x.
  Proof.
    intros t f x b (m & Hr & Hd & Hf) H. unfold set_contains in H.
    apply obind_ok in H. destruct H as (r & H1 & H2). inversion H2; subst.
    apply (lookup_refines _ _ _ _ Hequiv Hhash _ _ _ _ Hr) in H1. subst.
    rewrite <- Hf, amem_get. auto.
  Qed.

  (** Pigeonhole up to key equality. *)
  Lemma incl_length : forall m1 m2 : list (K * K),
    amap_nodup K K keq m1 -> (forall e, In e m1 -> amem m2 (fst e) = true) ->
    (length m1 <= length m2)%nat /\
    (length m1 = length m2 -> forall e, In e m2 -> amem m1 (fst e) = true).
  Proof.
    induction m1; intros m2 Hnd Hin.
    - split; simpl; [lia|]. intros Hl e He. destruct m2; [contradiction|discriminate].
    - inversion Hnd as [|? ? Hf Hnd']; subst.
      assert (Ha := Hin a (or_introl eq_refl)). apply existsb_exists in Ha. destruct Ha as (e' & He' & Hk).
      apply in_split in He'. destruct He' as (l1 & l2 & ->).
      destruct (IHm1 (l1 ++ l2) Hnd') as [IH1 IH2].
      + intros e He. assert (A := Hin e (or_intror He)). unfold amem in *.
        rewrite existsb_app in *. simpl in A.
        destruct (keq (fst e') (fst e)) eqn:E; [|simpl in A; exact A].
        exfalso. rewrite Forall_forall in Hf. specialize (Hf _ He).
        rewrite (keq_sym _ _ Hequiv) in Hk.
        rewrite (keq_trans _ _ Hequiv _ _ _ Hk E) in Hf. discriminate.
      + rewrite !app_length in *. simpl in *. split; [lia|].
        intros Hl e He. apply in_app_iff in He. simpl in He.
        destruct He as [He|[<-|He]].
        * rewrite (IH2 ltac:(lia) e) by (apply in_or_app; auto). apply orb_true_r.
        * rewrite (keq_sym _ _ Hequiv), Hk. auto.
        * rewrite (IH2 ltac:(lia) e) by (apply in_or_app; auto). apply orb_true_r.
  Qed.

  Lemma amem_self : forall m e, In e m -> amem m (fst e) = true.
  Proof. intros. apply existsb_exists. exists e. split; auto. apply keq_refl; auto. Qed.

  Lemma amem_cong : forall m x y, keq x y = true -> amem m x = amem m y.
  Proof.
    induction m; simpl; intros; auto. f_equal; auto.
    rewrite (keq_sym _ _ Hequiv (fst a) x), (keq_sym _ _ Hequiv (fst a) y). apply (keq_cong_l _ _ Hequiv); auto.
  Qed.

  Lemma subset_ok : forall t1 t2 f1 f2 b, is_set t1 f1 -> is_set t2 f2 ->
    set_is_subset K hash keq t1 t2 = Ok b ->
    (b = true <-> forall x, f1 x = true -> f2 x = true).
  Proof.
    intros t1 t2 f1 f2 b H1 H2 H. unfold set_is_subset in H.
    apply obind_ok in H. destruct H as (c & Hc & H). inversion H; subst; clear H.
    apply (foreach_ok _ _ (fun x => negb (f2 x))) in Hc.
    - subst c. rewrite negb_true_iff. split.
      + intros Hn x Hx. rewrite <- (is_set_omem t1 f1 x H1) in Hx.
        apply existsb_exists in Hx. destruct Hx as (o & Ho & Hk).
        destruct (f2 x) eqn:E; auto. exfalso.
        assert (existsb (fun x => negb (f2 x)) (set_objects t1) = true); [|congruence].
        apply existsb_exists. exists o. split; auto. apply negb_true_iff.
        destruct H2 as (m2 & _ & _ & Hf2). rewrite <- Hf2 in *. rewrite (amem_cong m2 o x); auto.
      + intros Hsub. destruct (existsb (fun x => negb (f2 x)) (set_objects t1)) eqn:E; auto.
        apply existsb_exists in E. destruct E as (o & Ho & Hn). apply negb_true_iff in Hn.
        rewrite Hsub in Hn; [discriminate|]. rewrite <- (is_set_omem t1 f1 o H1).
        apply existsb_exists. exists o. split; auto. apply keq_refl; auto.
    - intros x b _ Hx. apply obind_ok in Hx. destruct Hx as (d & Hd & Hx). inversion Hx; subst.
      f_equal. eapply contains_ok; eauto.
  Qed.

  Lemma equal_ok : forall t1 t2 f1 f2 b, is_set t1 f1 -> is_set t2 f2 ->
    set_equal K hash keq t1 t2 = Ok b ->
    (b = true <-> forall x, f1 x = f2 x).
  Proof.
    intros t1 t2 f1 f2 b H1 H2 H. unfold set_equal in H.
    assert (H1' := H1). assert (H2' := H2).
    destruct H1' as (m1 & Hr1 & Hd1 & Hf1). destruct H2' as (m2 & Hr2 & Hd2 & Hf2).
    assert (Hn1 := refines_nodup _ _ _ _ Hequiv _ _ Hr1).
    assert (Hn2 := refines_nodup _ _ _ _ Hequiv _ _ Hr2).
    rewrite (count_refines _ _ _ _ _ _ Hr1), (count_refines _ _ _ _ _ _ Hr2) in H.
    unfold amap_count in H.
    assert (Hback : (forall x, f1 x = f2 x) -> length m1 = length m2).
    { intros E.
      destruct (incl_length m1 m2 Hn1) as [L1 _].
      { intros e He. rewrite Hf2, <- E, <- Hf1. apply amem_self; auto. }
      destruct (incl_length m2 m1 Hn2) as [L2 _].
      { intros e He. rewrite Hf1, E, <- Hf2. apply amem_self; auto. }
      lia. }
    destruct (N.of_nat (length m1) =? N.of_nat (length m2))%N eqn:Ec.
    - apply N.eqb_eq in Ec.
      assert (Hs := subset_ok t1 t2 f1 f2 b H1 H2 H). rewrite Hs. split.
      + intros Hsub x. destruct (incl_length m1 m2 Hn1) as [_ L].
        { intros e He. rewrite Hf2. apply Hsub. rewrite <- Hf1. apply amem_self; auto. }
        destruct (f1 x) eqn:E1; [symmetry; auto|].
        destruct (f2 x) eqn:E2; auto. exfalso.
        rewrite <- Hf2 in E2. apply existsb_exists in E2. destruct E2 as (e & He & Hk).
        assert (A := L ltac:(lia) e He). rewrite (amem_cong m1 (fst e) x Hk), Hf1 in A. congruence.
      + intros E x Hx. rewrite <- E. auto.
    - inversion H; subst. split; [discriminate|]. intros E.
      apply N.eqb_neq in Ec. exfalso. apply Ec. f_equal. auto.
  Qed.

  Lemma intersects_ok : forall t1 t2 f1 f2 b, is_set t1 f1 -> is_set t2 f2 ->
    set_intersects K hash keq t1 t2 = Ok b ->
    (b = true <-> forall x, f1 x && f2 x = false).
  Proof.
    intros t1 t2 f1 f2 b H1 H2 H. unfold set_intersects in H.
    apply obind_ok in H. destruct H as (c & Hc & H). inversion H; subst; clear H.
    apply (foreach_ok _ _ f2) in Hc; [|intros; eapply contains_ok; eauto].
    subst c. rewrite negb_true_iff. split.
    - intros Hn x. destruct (f1 x) eqn:E1; auto. destruct (f2 x) eqn:E2; auto. exfalso.
      rewrite <- (is_set_omem t1 f1 x H1) in E1. apply existsb_exists in E1. destruct E1 as (o & Ho & Hk).
      assert (existsb f2 (set_objects t1) = true); [|congruence].
      apply existsb_exists. exists o. split; auto.
      destruct H2 as (m2 & _ & _ & Hf2). rewrite <- Hf2 in *. rewrite (amem_cong m2 o x); auto.
    - intros Hdis. destruct (existsb f2 (set_objects t1)) eqn:E; auto.
      apply existsb_exists in E. destruct E as (o & Ho & E).
      assert (A := Hdis o). rewrite E, andb_true_r in A. rewrite <- (is_set_omem t1 f1 o H1) in A.
      assert (omem t1 o = true); [|congruence].
      apply existsb_exists. exists o. split; auto. apply keq_refl; auto.
  Qed.

  (** DKSetIntersect never changes the members. *)
  Lemma intersect_noop : forall t1 t2 f1 f2 t', is_set t1 f1 -> is_set t2 f2 ->
    set_intersect K hash keq t1 t2 = Ok t' -> is_set t' f1.
  Proof.
    intros t1 t2 f1 f2 t' H1 H2 H. unfold set_intersect in H.
    assert (G : forall l t, (forall o, In o l -> f1 o = true) -> is_set t f1 ->
       foreach_state (fun s x => do c <- set_contains K hash keq t2 x; if c then set_add K hash keq s x else Ok s) t l = Ok t' ->
       is_set t' f1).
    { induction l; simpl; intros t Hl Ht Hr; [inversion Hr; subst; auto|].
      apply obind_ok in Hr. destruct Hr as (t3 & Ha & Hr).
      apply obind_ok in Ha. destruct Ha as (c & _ & Ha).
      apply (IHl t3); auto.
      destruct c; [|inversion Ha; subst; auto].
      eapply is_set_ext; [eapply set_add_ok; eauto|]. intros x. simpl.
      destruct (keq a x) eqn:E; [|apply orb_false_r].
      destruct Ht as (m & _ & _ & Hf). rewrite orb_true_r, <- Hf, <- (amem_cong m a x E), Hf. symmetry. auto. }
    apply (G (set_objects t1) t1); auto.
    intros o Ho. rewrite <- (is_set_omem t1 f1 o H1). apply existsb_exists. exists o. split; auto. apply keq_refl; auto.
  Qed.
End Sets.

Section Dicts.
  Variables K O : Type.
  Variable hash : K -> N.
  Variable keq : K -> K -> bool.
  Variable oeq : O -> O -> bool.
  Hypothesis Hequiv : equivalence K keq.
  Hypothesis Hhash : hash_respects K keq hash.

  Notation V := (option O).
  Notation tdict := (table K V).
  Notation refines := (refines K V hash keq).
  Notation get := (amap_get K V keq).

  Definition no_null (m : list (K * V)) : Prop := forall e, In e m -> snd e <> None.

  Lemma dict_get_ok : forall t m k r, refines t m -> dict_get K O hash keq t k = Ok r ->
    r = match get m k with Some (_, v) => v | None => None end.
  Proof.
    intros t m k r Hr H. unfold dict_get in H. apply obind_ok in H. destruct H as (x & H1 & H2).
    apply (lookup_refines _ _ _ _ Hequiv Hhash _ _ _ _ Hr) in H1. subst. inversion H2. auto.
  Qed.

  Lemma existsb_perm : forall A (f : A -> bool) l l', Permutation l l' -> existsb f l = existsb f l'.
  Proof.
    induction 1; simpl; auto; try congruence. rewrite !orb_assoc. f_equal. apply orb_comm.
  Qed.

  Lemma dict_subset_ok : forall t1 t2 m1 m2 b, refines t1 m1 -> refines t2 m2 ->
    dict_is_subset K O hash keq oeq t1 t2 = Ok b ->
    b = forallb (fun e => dk_equal O oeq (snd e) (match get m2 (fst e) with Some (_, v) => v | None => None end)) m1.
  Proof.
    intros t1 t2 m1 m2 b H1 H2 H. unfold dict_is_subset in H.
    apply obind_ok in H. destruct H as (c & Hc & H). inversion H; subst; clear H.
    apply (foreach_ok _ _ (fun e => negb (dk_equal O oeq (snd e) (match get m2 (fst e) with Some (_, v) => v | None => None end)))) in Hc.
    - subst c. destruct H1 as [_ Hp]. rewrite (existsb_perm _ _ _ _ Hp).
      clear. induction m1; simpl; auto. rewrite negb_orb, negb_involutive. f_equal. auto.
    - intros e b _ He. apply obind_ok in He. destruct He as (d & Hd & He). inversion He; subst.
      rewrite (dict_get_ok _ _ _ _ H2 Hd). auto.
  Qed.

  Lemma get_cong : forall (m : list (K * V)) x y, keq x y = true -> get m x = get m y.
  Proof.
    unfold amap_get. induction m; simpl; intros; auto.
    rewrite (keq_sym _ _ Hequiv (fst a) x), (keq_sym _ _ Hequiv (fst a) y),
      (keq_cong_l _ _ Hequiv x y (fst a) H).
    destruct (keq y (fst a)); auto.
  Qed.

  Lemma dict_pigeon : forall m1 m2 : list (K * V),
    amap_nodup K V keq m1 -> (forall e, In e m1 -> get m2 (fst e) <> None) ->
    (length m1 <= length m2)%nat /\
    (length m1 = length m2 -> forall e, In e m2 -> get m1 (fst e) <> None).
  Proof.
    intros m1 m2 Hn H.
    set (f := fun e : K * V => (fst e, fst e)).
    assert (Hget : forall (m : list (K * V)) k, get m k <> None <-> amem K keq (map f m) k = true).
    { induction m; simpl; intros.
      - split; [congruence|discriminate].
      - unfold amap_get in *. simpl. destruct (keq (fst a) k); simpl; [split; congruence|apply IHm]. }
    destruct (incl_length K keq Hequiv (map f m1) (map f m2)) as [A B].
    - clear - Hn. induction Hn; simpl; [constructor|]. constructor; auto.
      apply Forall_forall. intros e He. apply in_map_iff in He. destruct He as (e0 & <- & He0).
      rewrite Forall_forall in H. apply (H _ He0).
    - intros e He. apply in_map_iff in He. destruct He as (e0 & <- & He0). apply Hget. apply H. auto.
    - rewrite !map_length in *. split; auto. intros E e He. apply Hget.
      apply (B E (f e)). apply in_map. auto.
  Qed.

  Lemma dict_equal_ok : forall t1 t2 m1 m2 b, refines t1 m1 -> refines t2 m2 ->
    no_null m1 -> no_null m2 ->

    dict_equal K O hash keq oeq t1 t2 = Ok b ->
    (b = true <-> extensionally_equal K O keq oeq m1 m2).
  Proof.
    intros t1 t2 m1 m2 b H1 H2 Hz1 Hz2 H. unfold dict_equal in H.
    assert (Hn1 := refines_nodup _ _ _ _ Hequiv _ _ H1).
    assert (Hn2 := refines_nodup _ _ _ _ Hequiv _ _ H2).
    rewrite (count_refines _ _ _ _ _ _ H1), (count_refines _ _ _ _ _ _ H2) in H.
    unfold amap_count in H.
    assert (Hself : forall m e, In e m -> get m (fst e) <> None).
    { intros m e He Hg. rewrite amap_get_none in Hg. specialize (Hg _ He).
      rewrite (keq_refl _ _ Hequiv) in Hg. discriminate. }
    assert (Hdom : extensionally_equal K O keq oeq m1 m2 -> forall k, get m1 k = None <-> get m2 k = None).
    { intros E k. specialize (E k). destruct (get m1 k) as [[k1 [v1|]]|], (get m2 k) as [[k2 [v2|]]|];
      try contradiction; split; congruence. }
    assert (Hback : extensionally_equal K O keq oeq m1 m2 -> length m1 = length m2).
    { intros E. assert (D := Hdom E).
      destruct (dict_pigeon m1 m2 Hn1) as [L1 _].
      { intros e He Hg. apply D in Hg. revert Hg. apply Hself; auto. }
      destruct (dict_pigeon m2 m1 Hn2) as [L2 _].
      { intros e He Hg. apply D in Hg. revert Hg. apply Hself; auto. }
      lia. }
    destruct (N.of_nat (length m1) =? N.of_nat (length m2))%N eqn:Ec.
    - apply N.eqb_eq in Ec. rewrite (dict_subset_ok _ _ _ _ _ H1 H2 H), forallb_forall. split.
      + intros Hall.
        assert (Hin : forall e, In e m1 -> get m2 (fst e) <> None).
        { intros e He Hg. specialize (Hall _ He). rewrite Hg in Hall.
          destruct (snd e) eqn:Es; [discriminate|]. apply (Hz1 e He Es). }
        destruct (dict_pigeon m1 m2 Hn1 Hin) as [_ L]. specialize (L ltac:(lia)).
        intros k. destruct (get m1 k) as [[k1 v1]|] eqn:G1.
        * apply find_some in G1. destruct G1 as [G1 Gk]. simpl in Gk.
          specialize (Hall _ G1). simpl in Hall. rewrite (get_cong m2 k1 k Gk) in Hall.
          assert (Hv1 := Hz1 _ G1). simpl in Hv1.
          destruct v1 as [v1|]; [|congruence].
          destruct (get m2 k) as [[k2 [v2|]]|]; try discriminate. auto.
        * destruct (get m2 k) as [[k2 v2]|] eqn:G2; auto.
          apply find_some in G2. destruct G2 as [G2 Gk]. simpl in Gk.
          exfalso. apply (L _ G2). simpl. rewrite (get_cong m1 k2 k Gk). auto.
      + intros E e He. specialize (E (fst e)).
        assert (G1 : get m1 (fst e) = Some e).
        { apply amap_get_some; auto. split; auto. apply keq_refl; auto. }
        rewrite G1 in E. destruct e as [k v]. simpl in *.
        destruct v as [v|]; [|exfalso; apply (Hz1 _ He); auto].
        destruct (get m2 k) as [[k2 [v2|]]|]; try contradiction. auto.
    - inversion H; subst. split; [discriminate|]. intros E.
      apply N.eqb_neq in Ec. exfalso. apply Ec. f_equal. auto.
  Qed.

  Lemma dict_contains_key_ok : forall t m k b, refines t m -> no_null m ->
    dict_contains_key K O hash keq t k = Ok b -> (b = true <-> get m k <> None).
  Proof.
    intros t m k b Hr Hz H. unfold dict_contains_key in H. apply obind_ok in H. destruct H as (v & H1 & H2).
    apply (dict_get_ok _ _ _ _ Hr) in H1. inversion H2; subst.
    destruct (get m k) as [[k' v']|] eqn:G.
    - apply find_some in G. destruct G as [G _]. specialize (Hz _ G). simpl in Hz.
      destruct v'; [split; congruence|congruence].
    - split; congruence.
  Qed.
End Dicts.

(** ** The statements of SetDict_Props.v *)
Lemma set_relations :
  forall (K : Type) (hash : K -> N) (keq : K -> K -> bool),
    equivalence K keq -> hash_respects K keq hash ->
    forall e1 e2 t1 t2,
      build K hash keq e1 = Ok t1 -> build K hash keq e2 = Ok t2 ->
      (forall x b, set_contains K hash keq t1 x = Ok b -> b = denote K keq e1 x) /\
      (forall b, set_is_subset K hash keq t1 t2 = Ok b ->
         (b = true <-> forall x, denote K keq e1 x = true -> denote K keq e2 x = true)) /\
      (forall b, set_equal K hash keq t1 t2 = Ok b ->
         (b = true <-> forall x, denote K keq e1 x = denote K keq e2 x)).
Proof.
  intros K hash keq He Hh e1 e2 t1 t2 H1 H2.
  apply (build_ok K hash keq He Hh) in H1, H2.
  repeat apply conj; intros.
  - eapply contains_ok; eauto.
  - eapply subset_ok; eauto.
  - eapply equal_ok; eauto.
Qed.

Lemma union_minus :
  forall (K : Type) (hash : K -> N) (keq : K -> K -> bool),
    equivalence K keq -> hash_respects K keq hash ->
    forall e1 e2 t1 t2,
      build K hash keq e1 = Ok t1 -> build K hash keq e2 = Ok t2 ->
      (forall t, set_union K hash keq t1 t2 = Ok t ->
         forall x, existsb (fun o => keq o x) (set_objects t) = denote K keq e1 x || denote K keq e2 x) /\
      (forall t, set_minus K hash keq t1 t2 = Ok t ->
         forall x, existsb (fun o => keq o x) (set_objects t) = denote K keq e1 x && negb (denote K keq e2 x)).
Proof.
  intros K hash keq He Hh e1 e2 t1 t2 H1 H2. split; intros t H x.
  - apply (is_set_omem K hash keq He t _ x (build_ok K hash keq He Hh (SUnion e1 e2) t ltac:(simpl; rewrite H1, H2; exact H))).
  - apply (is_set_omem K hash keq He t _ x (build_ok K hash keq He Hh (SMinus e1 e2) t ltac:(simpl; rewrite H1, H2; exact H))).
Qed.

Lemma intersection_partial :
  forall (K : Type) (hash : K -> N) (keq : K -> K -> bool),
    equivalence K keq -> hash_respects K keq hash ->
    forall e1 e2 t1 t2,
      build K hash keq e1 = Ok t1 -> build K hash keq e2 = Ok t2 ->
      (forall b, set_intersects K hash keq t1 t2 = Ok b ->
         (b = true <-> ~ exists x, denote K keq e1 x = true /\ denote K keq e2 x = true)) /\
      (forall t, set_intersect K hash keq t1 t2 = Ok t ->
         forall x, existsb (fun o => keq o x) (set_objects t) = denote K keq e1 x).
Proof.
  intros K hash keq He Hh e1 e2 t1 t2 H1 H2.
  apply (build_ok K hash keq He Hh) in H1, H2. split; intros.
  - rewrite (intersects_ok K hash keq He Hh _ _ _ _ _ H1 H2 H). split.
    + intros A (x & B & C). specialize (A x). rewrite B, C in A. discriminate.
    + intros A x. destruct (denote K keq e1 x) eqn:E1; auto. destruct (denote K keq e2 x) eqn:E2; auto.
      exfalso. eauto.
  - apply (is_set_omem K hash keq He t). eapply intersect_noop; eauto.
Qed.

Local Open Scope N_scope.

Lemma intersection_refuted :
  exists (e1 e2 e3 : sexp N) t1 t2 t3,
    let hash := fun k : N => k in
    build N hash N.eqb e1 = Ok t1 /\ build N hash N.eqb e2 = Ok t2 /\ build N hash N.eqb e3 = Ok t3 /\
    (exists x, denote N N.eqb e1 x = true /\ denote N N.eqb e2 x = true) /\
    set_intersects N hash N.eqb t1 t2 = Ok false /\
    (forall x, denote N N.eqb e1 x && denote N N.eqb e3 x = false) /\
    set_intersects N hash N.eqb t1 t3 = Ok true /\
    (exists t x, set_intersect N hash N.eqb t1 t3 = Ok t /\ In x (set_objects t)).
Proof.
  exists (SAdd (SAdd SEmpty 1) 2), (SAdd SEmpty 2), (SAdd SEmpty 3).
  eexists _, _, _. cbv zeta.
  split; [vm_compute; reflexivity|]. split; [vm_compute; reflexivity|]. split; [vm_compute; reflexivity|].
  split; [exists 2; auto|]. split; [vm_compute; reflexivity|].
  split; [|split; [vm_compute; reflexivity|]].
  - intros x. cbn [denote]. rewrite !orb_false_r.
    destruct (3 =? x) eqn:E; [|apply andb_false_r]. apply N.eqb_eq in E. subst x. reflexivity.
  - eexists _, 1. split; [vm_compute; reflexivity|]. vm_compute. auto.
Qed.

Lemma dictionary_equality :
  forall (K O : Type) (hash : K -> N) (keq : K -> K -> bool) (oeq : O -> O -> bool),
    equivalence K keq -> hash_respects K keq hash ->
    forall (os1 os2 : list (op K (option O))) t1 t2 rs1 rs2,
      run K (option O) hash keq table_init os1 = Ok (t1, rs1) ->
      run K (option O) hash keq table_init os2 = Ok (t2, rs2) ->
      (forall e, In e (enumerate t1) -> snd e <> None) ->
      (forall e, In e (enumerate t2) -> snd e <> None) ->
      let m1 := fst (amap_run K (option O) keq [] os1) in
      let m2 := fst (amap_run K (option O) keq [] os2) in
      (forall b, dict_equal K O hash keq oeq t1 t2 = Ok b ->
         (b = true <-> extensionally_equal K O keq oeq m1 m2)) /\
      (forall k b, dict_contains_key K O hash keq t1 k = Ok b ->
         (b = true <-> amap_get K (option O) keq m1 k <> None)).
Proof.
  intros K O hash keq oeq He Hh os1 os2 t1 t2 rs1 rs2 H1 H2 Hz1 Hz2 m1 m2.
  destruct (run_refines _ _ _ _ He Hh _ _ _ _ _ (refines_init _ _ _ _) H1) as [A1 _].
  destruct (run_refines _ _ _ _ He Hh _ _ _ _ _ (refines_init _ _ _ _) H2) as [A2 _].
  assert (Z1 : no_null K O m1).
  { intros e Hin. apply Hz1. eapply Permutation_in; [apply Permutation_sym, A1|]; auto. }
  assert (Z2 : no_null K O m2).
  { intros e Hin. apply Hz2. eapply Permutation_in; [apply Permutation_sym, A2|]; auto. }
  split; intros.
  - eapply dict_equal_ok; eauto.
  - eapply dict_contains_key_ok; eauto.
Qed.

Lemma dictionary_refuted :
  exists (os1 os2 : list (op N (option N))) t1 t2 rs1 rs2,
    let hash := fun k : N => k in
    run N (option N) hash N.eqb table_init os1 = Ok (t1, rs1) /\
    run N (option N) hash N.eqb table_init os2 = Ok (t2, rs2) /\
    dict_equal N N hash N.eqb N.eqb t1 t2 = Ok true /\
    ~ extensionally_equal N N N.eqb N.eqb
        (fst (amap_run N (option N) N.eqb [] os1)) (fst (amap_run N (option N) N.eqb [] os2)) /\
    exists k, amap_get N (option N) N.eqb (fst (amap_run N (option N) N.eqb [] os1)) k <> None /\
              dict_contains_key N N hash N.eqb t1 k = Ok false.
Proof.
  exists [OpSet 1 None], [OpSet 2 None]. eexists _, _, _, _. cbv zeta.
  split; [vm_compute; reflexivity|]. split; [vm_compute; reflexivity|]. split; [vm_compute; reflexivity|].
  split.
  - intros H. specialize (H 1). vm_compute in H. exact H.
  - exists 1. split; [discriminate|vm_compute; reflexivity].
Qed.
