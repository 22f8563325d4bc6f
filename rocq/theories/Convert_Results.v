Require Import Coq.ZArith.ZArith Coq.NArith.NArith Coq.Lists.List Coq.Bool.Bool Coq.Arith.Arith Coq.Sorting.Permutation Coq.Sorting.Sorted Lia.
Require Import Verif.Base Verif.HashTable_Model Verif.SetDict_Model Verif.Array_Model Verif.LinkedList_Model Verif.List_Model Verif.Convert_Model.
Require Import Verif.HashTable_Spec Verif.Array_Spec Verif.LinkedList_Spec Verif.List_Spec Verif.Convert_Spec.
Require Import Verif.HashTable_Proofs Verif.SetDict_Proofs Verif.Array_Proofs Verif.List_Proofs Verif.Convert_Proofs.
Require Verif.LinkedList_Lists Verif.Tree_Model Verif.Tree_Spec Verif.Tree_Fun Verif.Tree_Runs.
Import ListNotations.

Section Results.
  Variable A : Type.
  Variable null : A.
  Variable is_null : A -> bool.
  Variable oid : A -> A -> bool.
  Variable hash : A -> N.
  Variable keq : A -> A -> bool.
  Variable kcmp : A -> A -> Z.
  Variable P : Type.
  Variable gt : P -> P -> bool.
  Variable pzero : P.
  Hypothesis Heq : equivalence A keq.
  Hypothesis Hhash : hash_respects A keq hash.
  Hypothesis Hcmp : compares A keq kcmp.
  Hypothesis Hnull : is_null null = true.
  Hypothesis Hnulls : forall a b, keq a b = true -> is_null a = is_null b.
  Let refl := proj1 Heq.
  Let sym := proj1 (proj2 Heq).
  Let trans := proj2 (proj2 Heq).

  Notation coll := (coll A P).
  Notation inv := (inv A is_null hash keq P).
  Notation pinv := (pinv A is_null hash keq P).
  Notation linv := (linv A P pzero).
  Notation build := (build A null is_null oid hash keq kcmp P gt pzero).
  Notation make := (make A null is_null hash keq kcmp P pzero).
  Notation objects_of := (objects_of A P).
  Notation pairs_of := (pairs_of A P).
  Notation count_of := (count_of A P).
  Notation copy := (copy A null is_null hash keq kcmp P pzero).
  Notation get := (get A null hash keq P).
  Notation contains := (contains A null is_null hash keq P pzero).
  Notation lists := (lists A P pzero).
  Notation objects := (objects A is_null).
  Notation with_key := (with_key A is_null).
  Notation member := (member A keq).
  Notation is_set_of := (is_set_of A null is_null keq P pzero hash).
  Notation set_of := (set_of A keq).

  (** The object of a key. *)
  Definition found (m : list (A * A)) (k : A) : A := match amap_get A A keq m k with Some e => snd e | None => null end.
  Lemma get_pinv : forall x m k r, pinv x m -> get x k = Ok r -> r = found m k.
  Proof.
    intros [a|s|t|c t] m k r I H; cbn [Convert_Proofs.pinv Convert_Model.get] in *; try contradiction.
    - destruct I as (R & <-). destruct (lookup A A hash keq t k) as [o| | |] eqn:E; try discriminate. cbn [obind] in H. inversion H. rewrite (lookup_refines A A hash keq Heq Hhash t _ k o R E). reflexivity.
    - destruct I as (C & s & (G & NN) & <-). rewrite (Tree_Runs.get_ok A A c (proj1 C) t s _ k G (height_deep A c t s G)) in H. cbn [obind] in H. inversion H. unfold found, Tree_Spec.lookup, amap_get.
      replace (List.find (fun e : A * A => keq (fst e) k) (Tree_Fun.pairs A A s)) with (List.find (fun e : A * A => (c (fst e) k =? 0)%Z) (Tree_Fun.pairs A A s)); [match goal with |- context [List.find ?f ?l] => destruct (List.find f l) end; reflexivity|].
      clear H H1 G NN. induction (Tree_Fun.pairs A A s) as [|y m IH]; cbn [List.find]; [reflexivity|]. rewrite <- (proj2 C). destruct (keq (fst y) k); auto.
  Qed.
  Lemma get_tree : forall c t m k, pinv (CTree c t) m -> get (CTree c t) k = Ok (found m k).
  Proof.
    intros c t m k I. assert (exists r, get (CTree c t) k = Ok r) as (r & E).
    { destruct I as (C & s & (G & _) & _). cbn [Convert_Model.get]. rewrite (Tree_Runs.get_ok A A c (proj1 C) t s _ k G (height_deep A c t s G)). cbn [obind]. eauto. }
    rewrite E. f_equal. eapply get_pinv; eauto.
  Qed.
  Lemma found_perm : forall m m' k, keys_distinct A keq m -> Permutation m m' -> found m k = found m' k.
  Proof. intros m m' k D Q. unfold found. rewrite (amap_get_perm A A keq Heq m m' k D Q). reflexivity. Qed.
  Lemma found_pair : forall m e, keys_distinct A keq m -> In e m -> forall k, keq (fst e) k = true -> found m k = snd e.
  Proof.
    intros m e D. unfold found, amap_get. induction D as [|y m F D IH]; intros H k K; [destruct H|]. cbn [List.find]. destruct H as [->|H]; [rewrite K; reflexivity|].
    destruct (keq (fst y) k) eqn:Q; [|apply IH; auto]. rewrite Forall_forall in F. specialize (F e H). rewrite (trans (fst y) k (fst e) Q) in F; [discriminate|]. rewrite sym. exact K.
  Qed.
  Lemma found_none : forall m k, (forall e, In e m -> keq (fst e) k = false) -> found m k = null.
  Proof. intros m k H. unfold found, amap_get. destruct (List.find _ m) as [e|] eqn:F; [|reflexivity]. apply find_some in F. destruct F as (F1 & F2). rewrite (H e F1) in F2. discriminate. Qed.

  (** Membership in a set. *)
  Lemma found_member : forall m l o, keys_distinct A keq m -> J A keq m l -> is_null o = false -> negb (is_null (found m o)) = member l o.
  Proof.
    intros m l o D (J1 & J2) N. unfold member. destruct (existsb (keq o) l) eqn:E.
    - apply existsb_exists in E. destruct E as (x & Hx & K). destruct (J2 x Hx) as (e & He & K2). assert (K3 : keq (fst e) o = true) by (apply (trans _ x); [exact K2|rewrite sym; exact K]).
      rewrite (found_pair m e D He o K3). destruct (J1 e He) as (_ & _ & K4). rewrite <- (Hnulls _ _ K4), (Hnulls _ _ K3), N. reflexivity.
    - rewrite found_none, Hnull; [reflexivity|]. intros e He. destruct (J1 e He) as (Hl & _). destruct (keq (fst e) o) eqn:K; [|reflexivity]. rewrite sym in K. assert (existsb (keq o) l = true) by (apply existsb_exists; eauto). congruence.
  Qed.
  Lemma set_member : forall l l' o, set_of l l' -> member l' o = member l o.
  Proof.
    intros l l' o (_ & S1 & S2). unfold member. apply eq_iff_eq_true. rewrite !existsb_exists. split; intros (x & Hx & K).
    - exists x. auto.
    - destruct (S2 x Hx) as (y & Hy & K2). exists y. split; [exact Hy|]. apply (trans o x y K). rewrite sym. exact K2.
  Qed.
  Lemma member_list : forall x l o, linv x l -> is_null o = false -> contains x o = Ok (member l o).
  Proof.
    assert (G : forall (y : A) l o, is_null o = false -> ((exists i, is_first_index A keq l o i /\ nth_error l (Z.to_nat i) = Some y) \/ (~ occurs A keq l o /\ y = null)) -> negb (is_null y) = member l o).
    { intros y l o N H. unfold member. destruct H as [(i & ((z & Hi & Hz & K) & _) & Hy)|(H & ->)].
      - rewrite Hz in Hy. inversion Hy; subst. rewrite <- (Hnulls _ _ K), N. symmetry. apply existsb_exists. exists y. split; [eapply nth_error_In; eauto|exact K].
      - rewrite Hnull. symmetry. apply not_true_is_false. rewrite existsb_exists. intros (z & Hz & K). apply H. exists z. auto. }
    intros [a|s|t|c t] l o L N; cbn [Convert_Proofs.linv Convert_Model.contains] in *; try contradiction.
    - destruct (get_member_ok A null keq _ _ _ (array_implements A null) a l o L) as (s' & y & E & _ & H). rewrite E. cbn [obind snd]. f_equal. apply G; assumption.
    - assert (L' : LinkedList_Lists.holds A P s l) by (exists (plain A P pzero l); split; [exact L|apply plain_fst]).
      destruct (get_member_ok A null keq _ _ _ (LinkedList_Lists.llist_implements A P gt pzero) s l o L') as (s' & y & E & _ & H). rewrite E. cbn [obind snd]. f_equal. apply G; assumption.
  Qed.

  (** C154 *)
  Theorem lists_made : forall e x, proper A keq P e -> build e = Ok x ->
    exists l, objects_of x = Ok l /\ count_of x = Z.of_nat (length l) /\
      forall k, k = KArray \/ k = KLinked -> exists y, make k x = Ok y /\ lists y l /\ objects_of y = Ok l /\ count_of y = Z.of_nat (length l).
  Proof.
    intros e x Hp H. destruct (build_inv A null is_null oid hash keq kcmp P gt pzero Heq Hhash Hcmp e x Hp H) as (l & I). exists l.
    split; [eapply inv_objects; eauto|]. split; [eapply inv_count; eauto|]. intros k K. destruct (make_list A null is_null hash keq kcmp P gt pzero k x l K I) as (y & E & L). exists y. split; [exact E|].
    split; [eapply linv_lists; eauto|]. apply (linv_inv A is_null hash keq) in L. split; [eapply inv_objects; eauto|eapply inv_count; eauto].
  Qed.
  Theorem lists_given : forall k l, k = KArray \/ k = KLinked ->
    (exists y, of_c_array A null is_null hash keq kcmp P pzero k l = Ok y /\ lists y l) /\
    ((Z.of_nat (length l) <= INT64_MAX)%Z -> exists y, of_arguments A null is_null hash keq kcmp P pzero k l = Ok y /\ lists y (given A is_null l)).
  Proof.
    intros k l K. split.
    - destruct (of_c_list A null is_null hash keq kcmp P gt pzero k l K) as (y & E & L). exists y. split; [exact E|eapply linv_lists; eauto].
    - intros B. destruct (arguments_list A null is_null hash keq kcmp P gt pzero k l K B) as (y & E & L). exists y. split; [exact E|eapply linv_lists; eauto].
  Qed.
  (** C155 *)
  Lemma hash_set : forall y l, hash_of A hash keq P l = Ok y -> is_set_of y l.
  Proof.
    intros y l H. destruct (hash_of_ok A is_null hash keq P Heq Hhash l y H) as (m & I & Jm). pose proof (pinv_distinct A is_null hash keq P y m I) as D. pose proof (pinv_inv A is_null hash keq P y m I) as I'. exists (map snd m).
    split; [eapply inv_objects; eauto|]. split; [apply J_set; auto|]. split; [eapply inv_count; eauto|]. intros o b N C. pose proof (pinv_not_pairs A is_null hash keq P y m I) as NP.
    destruct y; try contradiction; cbn [Convert_Model.contains] in C; (destruct (get _ o) as [r| | |] eqn:E; try discriminate; cbn [obind] in C; inversion C; rewrite (get_pinv _ m o r I E); apply found_member; auto).
  Qed.
  Lemma member_objects : forall l o, is_null o = false -> member (objects l) o = member l o.
  Proof.
    intros l o N. unfold member. apply eq_iff_eq_true. rewrite !existsb_exists. split; intros (x & Hx & K); exists x.
    - apply filter_In in Hx. destruct Hx. auto.
    - split; [|exact K]. apply filter_In. split; [exact Hx|]. rewrite <- (Hnulls _ _ K), N. reflexivity.
  Qed.
  Lemma tree_set : forall l, exists y, tree_of A is_null kcmp P l = Ok y /\ is_set_of y (objects l) /\ (forall o, is_null o = false -> contains y o = Ok (member l o)) /\
    exists l', objects_of y = Ok l' /\ StronglySorted (fun a b => (kcmp a b > 0)%Z) l'.
  Proof.
    intros l. destruct (tree_of_ok A is_null hash keq kcmp P Heq Hcmp l) as (y & m & E & I & Jm & O). exists y. split; [exact E|]. pose proof (pinv_distinct A is_null hash keq P y m I) as D. pose proof (pinv_inv A is_null hash keq P y m I) as I'.
    assert (C : forall o, is_null o = false -> contains y o = Ok (member l o)).
    { intros o N. unfold tree_of in E. destruct (foreach_state _ _ _) as [t| | |] in E; try discriminate. cbn [obind] in E. inversion E; subst. cbn [Convert_Model.contains]. rewrite (get_tree _ _ m o I). cbn [obind]. f_equal. rewrite <- (member_objects l o N). apply found_member; auto. }
    split; [|split; [exact C|]].
    - exists (map snd m). split; [eapply inv_objects; eauto|]. split; [apply J_set; auto|]. split; [eapply inv_count; eauto|]. intros o b N K. rewrite (C o N) in K. inversion K. symmetry. apply member_objects. exact N.
    - exists (map snd m). split; [eapply inv_objects; eauto|]. apply (ordered_objects A keq Heq kcmp Hcmp m (objects l) Jm O).
  Qed.
  Theorem sets_made : forall e x l, proper A keq P e -> build e = Ok x -> objects_of x = Ok l ->
    (forall y, make KHash x = Ok y -> is_set_of y l) /\
    (exists y, make KTree x = Ok y /\ is_set_of y (objects l) /\ (forall o, is_null o = false -> contains y o = Ok (member l o)) /\
       exists l', objects_of y = Ok l' /\ StronglySorted (fun a b => (kcmp a b > 0)%Z) l') /\
    (forall k, k = KArray \/ k = KLinked ->
       (forall y, list_set A null is_null hash keq kcmp P pzero 1 KHash k x = Ok y -> is_set_of y l /\ exists l', objects_of y = Ok l' /\ lists y l') /\
       exists y, list_set A null is_null hash keq kcmp P pzero 1 KTree k x = Ok y /\ is_set_of y (objects l) /\ exists l', objects_of y = Ok l' /\ lists y l' /\ StronglySorted (fun a b => (kcmp a b > 0)%Z) l').
  Proof.
    intros e x l Hp H Ho. assert (MH : make KHash x = hash_of A hash keq P l) by (unfold Convert_Model.make; rewrite Ho; reflexivity). assert (MT : make KTree x = tree_of A is_null kcmp P l) by (unfold Convert_Model.make; rewrite Ho; reflexivity).
    assert (LS : forall l k z m y, k = KArray \/ k = KLinked -> pinv z m -> set_of l (map snd m) -> make k z = Ok y -> linv y (map snd m) /\ objects_of y = Ok (map snd m) /\ is_set_of y l /\ lists y (map snd m)).
    { clear l Ho MH MT. intros l k z m y K I S E. pose proof (pinv_inv A is_null hash keq P z m I) as I'. destruct (make_list A null is_null hash keq kcmp P gt pzero k z _ K I') as (y' & E' & L). rewrite E' in E. inversion E; subst. pose proof (linv_inv A is_null hash keq P pzero _ _ L) as I2.
      split; [exact L|]. split; [eapply inv_objects; eauto|]. split; [|eapply linv_lists; eauto]. exists (map snd m). split; [eapply inv_objects; eauto|]. split; [exact S|]. split; [eapply inv_count; eauto|].
      intros o b N C. rewrite (member_list y _ o L N) in C. inversion C. apply set_member. exact S. }
    split; [|split].
    - intros y E. rewrite MH in E. apply hash_set. exact E.
    - rewrite MT. apply tree_set.
    - intros k K. split.
      + intros y E. cbn [list_set] in E. rewrite MH in E. destruct (hash_of A hash keq P l) as [z| | |] eqn:E2; try discriminate. cbn [obind] in E. destruct (hash_of_ok A is_null hash keq P Heq Hhash l z E2) as (m & I & Jm). pose proof (pinv_distinct A is_null hash keq P z m I) as D.
        destruct (LS l k z m y K I (J_set A keq Heq m l Jm D) E) as (_ & Q1 & Q2 & Q3). eauto.
      + cbn [list_set]. rewrite MT. destruct (tree_of_ok A is_null hash keq kcmp P Heq Hcmp l) as (z & m & E2 & I & Jm & O). rewrite E2. cbn [obind]. pose proof (pinv_distinct A is_null hash keq P z m I) as D. pose proof (pinv_inv A is_null hash keq P z m I) as I'.
        destruct (make_list A null is_null hash keq kcmp P gt pzero k z _ K I') as (y & E & L). exists y. split; [exact E|]. destruct (LS (objects l) k z m y K I (J_set A keq Heq m (objects l) Jm D) E) as (_ & Q1 & Q2 & Q3). split; [exact Q2|]. exists (map snd m). split; [exact Q1|]. split; [exact Q3|]. apply (ordered_objects A keq Heq kcmp Hcmp m (objects l) Jm O).
  Qed.
  Theorem sets_given : forall l, (forall y, of_c_array A null is_null hash keq kcmp P pzero KHash l = Ok y -> is_set_of y l) /\ (exists y, of_c_array A null is_null hash keq kcmp P pzero KTree l = Ok y /\ is_set_of y (objects l)) /\
    (forall y, of_arguments A null is_null hash keq kcmp P pzero KHash l = Ok y -> is_set_of y (given A is_null l)) /\ (exists y, of_arguments A null is_null hash keq kcmp P pzero KTree l = Ok y /\ is_set_of y (given A is_null l)).
  Proof.
    intros l. cbn [of_c_array of_arguments]. split; [intros y; apply hash_set|]. split; [|split; [intros y; apply hash_set|]].
    - destruct (tree_set l) as (y & E & Q & _). eauto.
    - destruct (tree_set (given A is_null l)) as (y & E & Q & _). exists y. split; [exact E|]. replace (given A is_null l) with (objects (given A is_null l)); [exact Q|]. clear. unfold Convert_Proofs.objects. induction l as [|x l IH]; cbn [given filter]; [reflexivity|]. destruct (is_null x) eqn:N; [reflexivity|]. cbn [filter]. rewrite N. cbn [negb]. rewrite IH. reflexivity.
  Qed.
  (** C156 *)
  Lemma found_filter : forall m k, is_null k = false -> found (filter with_key m) k = found m k.
  Proof.
    intros m k N. unfold found, amap_get. assert (E : List.find (fun e => keq (fst e) k) (filter with_key m) = List.find (fun e => keq (fst e) k) m); [|rewrite E; reflexivity].
    induction m as [|e m IH]; cbn [filter List.find]; [reflexivity|]. unfold Convert_Proofs.with_key at 1. destruct (is_null (fst e)) eqn:Q; cbn [negb List.find].
    - destruct (keq (fst e) k) eqn:K; [rewrite (Hnulls _ _ K) in Q; congruence|exact IH].
    - rewrite IH. reflexivity.
  Qed.
  Theorem dictionaries_made : forall e x m, proper A keq P e -> build e = Ok x -> pairs_of x = Ok m ->
    (forall y, make_dict A is_null hash keq kcmp P KHash x = Ok y \/ copy x = Ok y ->
      (exists m', pairs_of y = Ok m' /\ Permutation m' m) /\ count_of y = count_of x /\
      forall k a b, get x k = Ok a -> get y k = Ok b -> a = b) /\
    exists y, make_dict A is_null hash keq kcmp P KTree x = Ok y /\
      (exists m', pairs_of y = Ok m' /\ Permutation m' (filter (fun e => negb (is_null (fst e))) m)) /\
      ((forall k v, In (k, v) m -> is_null k = false) -> count_of y = count_of x) /\
      forall k a, is_null k = false -> get x k = Ok a -> get y k = Ok a.
  Proof.
    intros e x m Hp H Hm. destruct (build_inv A null is_null oid hash keq kcmp P gt pzero Heq Hhash Hcmp e x Hp H) as (l & I). destruct (inv_pinv A is_null hash keq P x l m I Hm) as (Q & ->). pose proof (pinv_distinct A is_null hash keq P x m Q) as D.
    pose proof (inv_count A is_null hash keq P gt pzero x _ I) as CX. split.
    - intros y HC. assert (exists m', pinv y m' /\ Permutation m' m) as (m' & Q' & PM).
      { destruct HC as [E|E]; [apply (make_dict_ok A is_null hash keq kcmp P Heq Hhash Hcmp KHash x m y Q E)|eapply copy_dict_ok; eauto]. }
      split; [exists m'; split; [eapply pinv_pairs; eauto|exact PM]|]. split.
      + rewrite CX, (inv_count A is_null hash keq P gt pzero y _ (pinv_inv A is_null hash keq P y m' Q')), !map_length, (Permutation_length PM). reflexivity.
      + intros k a b Ga Gb. rewrite (get_pinv x m k a Q Ga), (get_pinv y m' k b Q' Gb). apply found_perm; [exact D|]. symmetry. exact PM.
    - unfold make_dict. rewrite Hm. cbn [obind]. destruct (dict_tree A is_null hash keq P kcmp m Hcmp D) as (t & m' & E & Q' & PM). rewrite E. cbn [obind]. eexists. split; [reflexivity|].
      split; [exists m'; split; [eapply pinv_pairs; eauto|exact PM]|]. split.
      + intros N. rewrite CX, (inv_count A is_null hash keq P gt pzero _ _ (pinv_inv A is_null hash keq P _ m' Q')), !map_length, (Permutation_length PM). rewrite no_nulls_filter; [reflexivity|]. apply Forall_forall. intros [k v] Hk. apply (N k v Hk).
      + intros k a N Ga. rewrite (get_tree kcmp t m' k Q'). f_equal. rewrite (get_pinv x m k a Q Ga), <- (found_filter m k N). symmetry. apply found_perm; [apply filter_distinct; exact D|]. symmetry. exact PM.
  Qed.
  (** C157 *)
  Theorem keys_and_objects : forall e x m, proper A keq P e -> build e = Ok x -> pairs_of x = Ok m -> (Z.of_nat (length m) <= INT64_MAX)%Z ->
    (exists a, all_keys A null P x = Ok a /\ lists (CArr a) (map fst m)) /\ (exists a, all_objects A null P x = Ok a /\ lists (CArr a) (map snd m)) /\
    count_of x = Z.of_nat (length m) /\ distinct A keq (map fst m) /\
    (forall k r, get x k = Ok r -> (forall v, In (k, v) m -> r = v) /\ ((forall k', In k' (map fst m) -> keq k' k = false) -> r = null)) /\
    forall o, exists b, contains_object A oid P x o = Ok b /\ (b = true <-> exists v, In v (map snd m) /\ oid v o = true).
  Proof.
    intros e x m Hp H Hm B. destruct (build_inv A null is_null oid hash keq kcmp P gt pzero Heq Hhash Hcmp e x Hp H) as (l & I). destruct (inv_pinv A is_null hash keq P x l m I Hm) as (Q & ->). pose proof (pinv_distinct A is_null hash keq P x m Q) as D.
    split; [|split; [|split; [|split; [|split]]]].
    - unfold all_keys. rewrite Hm. cbn [obind]. destruct (appends_ok A null (map fst m) array_init [] (ainv_init A)) as (a & E & J); [cbn [length]; rewrite map_length; lia|]. exists a. split; [exact E|]. apply (linv_lists A null P gt pzero (CArr a)). exact J.
    - unfold all_objects. rewrite Hm. cbn [obind]. destruct (appends_ok A null (map snd m) array_init [] (ainv_init A)) as (a & E & J); [cbn [length]; rewrite map_length; lia|]. exists a. split; [exact E|]. apply (linv_lists A null P gt pzero (CArr a)). exact J.
    - rewrite (inv_count A is_null hash keq P gt pzero x _ I), map_length. reflexivity.
    - clear - D. unfold distinct. induction D as [|y m F D IH]; cbn [map]; constructor; [|exact IH]. apply Forall_forall. intros z Hz. apply in_map_iff in Hz. destruct Hz as (w & <- & Hw). rewrite Forall_forall in F. auto.
    - intros k r G. rewrite (get_pinv x m k r Q G). split.
      + intros v Hv. apply (found_pair m (k, v) D Hv k). apply refl.
      + intros N. apply found_none. intros w Hw. apply N. apply in_map. exact Hw.
    - intros o. unfold contains_object. rewrite Hm. cbn [obind]. clear. induction m as [|y m IH]; cbn [foreach map].
      + exists false. split; [reflexivity|]. split; [discriminate|]. intros (v & [] & _).
      + cbn [obind]. destruct (oid (snd y) o) eqn:E; [exists true; split; [reflexivity|]; split; [intros _; exists (snd y); cbn; auto|auto]|]. destruct IH as (b & E1 & E2). exists b. split; [exact E1|]. rewrite E2. split; intros (v & Hv & K); exists v; (split; [|exact K]); [right; exact Hv|]. destruct Hv as [<-|Hv]; [congruence|exact Hv].
  Qed.
End Results.

(** Sets of the default class, if that is a class of lists. *)
Theorem default_list_set_diverges : forall A null is_null hash keq kcmp P pzero (x : coll A P) k d fuel, d = KArray \/ d = KLinked -> list_set A null is_null hash keq kcmp P pzero fuel d k x = NoFuel.
Proof.
  intros A null is_null hash keq kcmp P pzero x k d fuel D. revert k. induction fuel as [|fuel IH]; intros k; [reflexivity|]. cbn [list_set]. destruct D as [->| ->]; rewrite (IH _); reflexivity.
Qed.

(** Numbers as references; 0 is NULL. *)
Definition no_null (x : N) : bool := N.eqb x 0.
Definition ncmp (a b : N) : Z := (Z.of_N b - Z.of_N a)%Z.
Definition nhash (a : N) : N := a.
Definition ngt (a b : Z) : bool := (b <? a)%Z.
Lemma numbers_ok : equivalence N N.eqb /\ hash_respects N N.eqb nhash /\ compares N N.eqb ncmp /\ no_null 0 = true /\ forall a b, N.eqb a b = true -> no_null a = no_null b.
Proof.
  split; [|split; [|split; [|split]]].
  - split; [apply N.eqb_refl|]. split; [apply N.eqb_sym|]. intros a b c H1 H2. apply N.eqb_eq in H1, H2. subst. apply N.eqb_refl.
  - intros a b H. apply N.eqb_eq in H. subst. reflexivity.
  - unfold compares, Tree_Spec.ordering, ncmp. split; [repeat split; intros; lia|]. intros a b. apply eq_iff_eq_true. rewrite N.eqb_eq, Z.eqb_eq. lia.
  - reflexivity.
  - intros a b H. apply N.eqb_eq in H. subst. reflexivity.
Qed.
Notation nbuild := (build N 0%N no_null N.eqb nhash N.eqb ncmp Z ngt 0%Z).
Lemma copies_lose_priorities : exists (e : expr N Z) x y, proper N N.eqb Z e /\ nbuild e = Ok (CLnk x) /\ nbuild (Copy e) = Ok (CLnk y) /\
  (do r <- llist_get_priority N Z x 0; Ok (snd r)) = Ok (Some 5%Z) /\ (do r <- llist_get_priority N Z y 0; Ok (snd r)) = Ok (Some 0%Z).
Proof.
  exists (List_of [LPriority N Z 7%N 5%Z LinkedList_Model.InsertAlways]). eexists _, _. split; [split; [repeat constructor|vm_compute; discriminate]|]. split; [reflexivity|]. split; [reflexivity|]. split; reflexivity.
Qed.
(** A list of NULL and 1 made a set. *)
Lemma null_members : exists (e : expr N Z) x y, proper N N.eqb Z e /\ nbuild (From KHash e) = Ok x /\ nbuild (From KTree e) = Ok y /\
  objects_of N Z x = Ok [0%N; 1%N] /\ count_of N Z x = 2%Z /\ contains N 0%N no_null nhash N.eqb Z 0%Z x 0%N = Ok false /\ objects_of N Z y = Ok [1%N].
Proof.
  exists (Of KArray [0%N; 1%N]). eexists _, _. split; [exact I|]. split; [vm_compute; reflexivity|]. split; [vm_compute; reflexivity|]. repeat split; vm_compute; reflexivity.
Qed.
