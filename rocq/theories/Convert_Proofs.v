Require Import Coq.ZArith.ZArith Coq.NArith.NArith Coq.Lists.List Coq.Bool.Bool Coq.Arith.Arith Coq.Sorting.Permutation Coq.Sorting.Sorted Lia.
Require Import Verif.Base Verif.HashTable_Model Verif.SetDict_Model Verif.Array_Model Verif.LinkedList_Model Verif.List_Model Verif.Convert_Model.
Require Import Verif.HashTable_Spec Verif.Array_Spec Verif.LinkedList_Spec Verif.List_Spec Verif.Convert_Spec.
Require Import Verif.HashTable_Proofs Verif.SetDict_Proofs Verif.Array_Proofs Verif.List_Proofs.
Require Verif.LinkedList_Proofs Verif.Tree_Model Verif.Tree_Spec Verif.Tree_Heap Verif.Tree_Fun Verif.Tree_Proofs Verif.Tree_Runs.
Import ListNotations.

Section Lists.
  Variable A : Type.
  Variable eq : A -> A -> bool.
  Hypothesis Heq : equivalence A eq.
  Let refl := proj1 Heq.
  Let sym := proj1 (proj2 Heq).
  Let trans := proj2 (proj2 Heq).
  Notation pr := (A * A)%type.
  (** [m'] is [m] with [v] stored for [k]. *)
  Definition setk (m : list pr) (e : pr) (m' : list pr) : Prop :=
    (forall y, In y m' -> In y m \/ y = e \/ exists z, In z m /\ fst y = fst z /\ eq (fst z) (fst e) = true /\ snd y = snd e) /\
    (forall y, In y m -> exists z, In z m' /\ fst z = fst y) /\ (exists z, In z m' /\ eq (fst z) (fst e) = true).
  Definition J (m : list pr) (l : list A) : Prop :=
    (forall e, In e m -> In (fst e) l /\ In (snd e) l /\ eq (fst e) (snd e) = true) /\ forall x, In x l -> exists e, In e m /\ eq (fst e) x = true.
  Lemma J_step : forall m l x m', J m l -> setk m (x, x) m' -> J m' (l ++ [x]).
  Proof.
    intros m l x m' (J1 & J2) (S1 & S2 & S3). split.
    - intros e He. destruct (S1 e He) as [H|[->|(z & Hz & E1 & E2 & E3)]].
      + destruct (J1 e H) as (a & b & c). rewrite !in_app_iff. auto.
      + cbn [fst snd]. rewrite !in_app_iff. cbn. rewrite refl. auto.
      + destruct (J1 z Hz) as (a & b & c). cbn [fst snd] in *. rewrite E1, E3, !in_app_iff. cbn. auto.
    - intros y Hy. apply in_app_or in Hy. destruct Hy as [Hy|[<-|[]]].
      + destruct (J2 y Hy) as (e & He & Q). destruct (S2 e He) as (z & Hz & E). exists z. rewrite E. auto.
      + exact S3.
  Qed.
  Lemma J_fold : forall (f : list pr -> pr -> list pr), (forall m e, setk m e (f m e)) -> forall l m pre, J m pre -> J (fold_left f (map (twice A) l) m) (pre ++ l).
  Proof.
    intros f Hf. induction l as [|x l IH]; intros m pre H; cbn [map fold_left].
    - rewrite app_nil_r. exact H.
    - replace (pre ++ x :: l) with ((pre ++ [x]) ++ l) by (rewrite <- app_assoc; reflexivity). apply IH. apply (J_step m pre x); [exact H|]. apply (Hf m (x, x)).
  Qed.
  Lemma J_nil : J [] []. Proof. split; intros ? []. Qed.
  Definition keys_distinct (m : list pr) : Prop := ForallOrdPairs (fun a b => eq (fst a) (fst b) = false) m.
  Lemma J_set : forall m l, J m l -> keys_distinct m -> set_of A eq l (map snd m).
  Proof.
    intros m l (J1 & J2) D. split; [|split].
    - clear J2. unfold distinct. assert (K : forall e, In e m -> eq (fst e) (snd e) = true) by (intros; apply J1; auto). clear J1. induction D as [|a m Fa D IH]; cbn [map]; constructor.
      + apply Forall_forall. intros y Hy. apply in_map_iff in Hy. destruct Hy as (b & <- & Hb). rewrite Forall_forall in Fa. specialize (Fa b Hb). destruct (eq (snd a) (snd b)) eqn:Q; [|reflexivity].
        assert (Ka := K a (or_introl eq_refl)). assert (Kb := K b (or_intror Hb)). rewrite (trans (fst a) (snd a) (fst b) Ka) in Fa; [discriminate|]. apply (trans (snd a) (snd b) (fst b) Q). rewrite sym. exact Kb.
      + apply IH. intros e He. apply K. right. exact He.
    - intros x Hx. apply in_map_iff in Hx. destruct Hx as (e & <- & He). apply J1. exact He.
    - intros x Hx. destruct (J2 x Hx) as (e & He & Q). exists (snd e). split; [apply in_map; exact He|]. apply (trans (snd e) (fst e) x); [|exact Q]. rewrite sym. apply J1. exact He.
  Qed.
  (** Storing pairs with different keys. *)
  Lemma perm_fold : forall (f : list pr -> pr -> list pr), (forall m e, (forall y, In y m -> eq (fst y) (fst e) = false) -> Permutation (f m e) (e :: m)) ->
    forall l m, keys_distinct l -> (forall a b, In a l -> In b m -> eq (fst b) (fst a) = false) -> Permutation (fold_left f l m) (l ++ m).
  Proof.
    intros f Hf. induction l as [|e l IH]; intros m D H; cbn [fold_left app]; [reflexivity|]. inversion D as [|? ? Fe D']; subst.
    assert (Q : Permutation (f m e) (e :: m)) by (apply Hf; intros y Hy; apply H; [left; reflexivity|exact Hy]).
    rewrite IH; [|exact D'|].
    - rewrite Q. symmetry. apply Permutation_middle.
    - intros a b Ha Hb. apply (Permutation_in _ Q) in Hb. destruct Hb as [<-|Hb]; [rewrite Forall_forall in Fe; apply Fe; exact Ha|]. apply H; [right; exact Ha|exact Hb].
  Qed.

  Lemma amap_setk : forall m e, setk m e (amap_set A A eq m (fst e) (snd e)).
  Proof.
    intros m e. unfold amap_set, amap_get. destruct (List.find (fun y => eq (fst y) (fst e)) m) as [y|] eqn:F.
    - unfold amap_overwrite. split; [|split].
      + intros z Hz. apply in_map_iff in Hz. destruct Hz as (w & <- & Hw). destruct (eq (fst w) (fst e)) eqn:Q; [|left; exact Hw]. right. right. exists w. cbn [fst snd]. auto.
      + intros z Hz. exists (if eq (fst z) (fst e) then (fst z, snd e) else z). split; [apply in_map_iff; exists z; auto|]. destruct (eq (fst z) (fst e)); reflexivity.
      + apply find_some in F. destruct F as (F1 & F2). exists (fst y, snd e). split; [|exact F2]. apply in_map_iff. exists y. rewrite F2. auto.
    - split; [|split].
      + intros z [<-|Hz]; [right; left; destruct e; reflexivity|left; exact Hz].
      + intros z Hz. exists z. split; [right; exact Hz|reflexivity].
      + exists (fst e, snd e). split; [left; reflexivity|apply refl].
  Qed.
  Lemma amap_fresh : forall m e, (forall y, In y m -> eq (fst y) (fst e) = false) -> Permutation (amap_set A A eq m (fst e) (snd e)) (e :: m).
  Proof.
    intros m e H. unfold amap_set, amap_get. destruct (List.find (fun y => eq (fst y) (fst e)) m) as [y|] eqn:F; [apply find_some in F; destruct F as (F1 & F2); rewrite (H y F1) in F2; discriminate|]. destruct e. reflexivity.
  Qed.

  Variable c : A -> A -> Z.
  Hypothesis Hc : compares A eq c.
  Notation put := (Tree_Spec.put A A c).
  Lemma c_eq : forall a b, eq a b = true <-> c a b = 0%Z. Proof. intros a b. rewrite (proj2 Hc a b). apply Z.eqb_eq. Qed.
  Lemma put_setk : forall m e, setk m e (put m (fst e) (snd e) HashTable_Model.InsertAlways).
  Proof.
    induction m as [|[a b] m IH]; intros e; cbn [Tree_Spec.put].
    - split; [|split].
      + intros y [<-|[]]. right. left. destruct e; reflexivity.
      + intros y [].
      + exists (fst e, snd e). split; [left; reflexivity|apply refl].
    - destruct (Z.ltb_spec (c a (fst e)) 0); [|destruct (Z.eqb_spec (c a (fst e)) 0)].
      + split; [|split].
        * intros y [<-|Hy]; [right; left; destruct e; reflexivity|left; exact Hy].
        * intros y Hy. exists y. split; [right; exact Hy|reflexivity].
        * exists (fst e, snd e). split; [left; reflexivity|apply refl].
      + assert (Q : eq a (fst e) = true) by (apply c_eq; auto). split; [|split].
        * intros y [<-|Hy]; [|left; right; exact Hy]. right. right. exists (a, b). cbn [fst snd In]. auto.
        * intros y [<-|Hy]; [exists (a, snd e); cbn [In fst]; auto|exists y; cbn [In]; auto].
        * exists (a, snd e). cbn [In fst]. auto.
      + destruct (IH e) as (I1 & I2 & I3). split; [|split].
        * intros y [<-|Hy]; [left; left; reflexivity|]. destruct (I1 y Hy) as [Q|[Q|(z & Hz & Q)]]; [left; right; exact Q|auto|]. right. right. exists z. cbn [In]. auto.
        * intros y [<-|Hy]; [exists (a, b); cbn [In]; auto|]. destruct (I2 y Hy) as (z & Hz & Q). exists z. cbn [In]. auto.
        * destruct I3 as (z & Hz & Q). exists z. cbn [In]. auto.
  Qed.
  Lemma put_fresh : forall m e, (forall y, In y m -> eq (fst y) (fst e) = false) -> Permutation (put m (fst e) (snd e) HashTable_Model.InsertAlways) (e :: m).
  Proof.
    induction m as [|[a b] m IH]; intros e H; cbn [Tree_Spec.put]; [destruct e; reflexivity|].
    destruct (Z.ltb_spec (c a (fst e)) 0); [destruct e; reflexivity|]. destruct (Z.eqb_spec (c a (fst e)) 0) as [Q|Q].
    - apply c_eq in Q. specialize (H (a, b) (or_introl eq_refl)). cbn [fst] in H. congruence.
    - rewrite (IH e); [apply perm_swap|]. intros y Hy. apply H. right. exact Hy.
  Qed.
  Lemma ordered_distinct : forall m, Tree_Spec.ordered A A c m -> keys_distinct m.
  Proof.
    intros m H. induction H as [|a m S IH F]; constructor; [|exact IH]. apply Forall_forall. intros b Hb. rewrite Forall_forall in F. specialize (F b Hb). rewrite (proj2 Hc). apply Z.eqb_neq. cbn in *. lia.
  Qed.
  Lemma ordered_objects : forall m l, J m l -> Tree_Spec.ordered A A c m -> StronglySorted (fun a b => (c a b > 0)%Z) (map snd m).
  Proof.
    intros m l (J1 & _) H. assert (K : forall e, In e m -> eq (fst e) (snd e) = true) by (intros; apply J1; auto). clear J1. destruct Hc as ((_ & O2 & O3 & O4 & O5) & _).
    induction H as [|a m S IH F]; cbn [map]; constructor.
    - apply IH. intros e He. apply K. right. exact He.
    - apply Forall_forall. intros y Hy. apply in_map_iff in Hy. destruct Hy as (b & <- & Hb). rewrite Forall_forall in F. specialize (F b Hb). cbn in F.
      assert (Ka := K a (or_introl eq_refl)). assert (Kb := K b (or_intror Hb)). rewrite sym in Ka. apply c_eq in Ka. apply c_eq in Kb.
      apply (O4 _ (fst b)); [apply (O5 _ (fst a)); [lia|lia]|lia].
  Qed.
End Lists.

Section Proofs.
  Variable A : Type.
  Variable null : A.
  Variable is_null : A -> bool.
  Variable oid : A -> A -> bool.
  Variable hash : A -> N.
  Variable keq : A -> A -> bool.
  Variable kcmp : A -> A -> Z.
  Variable P : Type.
  Variable gt : P -> P -> bool.
  Variable pzero : P.
  Hypothesis Heq : equivalence A keq.
  Hypothesis Hhash : hash_respects A keq hash.
  Hypothesis Hcmp : compares A keq kcmp.
  Hypothesis Hnull : is_null null = true.
  Hypothesis Hnulls : forall a b, keq a b = true -> is_null a = is_null b.

  Notation coll := (coll A P).
  Notation expr := (expr A P).
  Notation tinv := (tinv A A hash keq).
  Notation refines := (refines A A hash keq).
  Notation good := (Tree_Runs.good A A).
  Notation pairs := (Tree_Fun.pairs A A).
  Notation represents := (LinkedList_Proofs.represents A P).
  Notation build := (build A null is_null oid hash keq kcmp P gt pzero).
  Notation make := (make A null is_null hash keq kcmp P pzero).
  Notation objects_of := (objects_of A P).
  Notation pairs_of := (pairs_of A P).
  Notation count_of := (count_of A P).
  Notation J := (J A keq).

  Definition no_nulls (m : list (A * A)) : Prop := Forall (fun e => is_null (fst e) = false) m.
  Definition with_key (e : A * A) : bool := negb (is_null (fst e)).
  Definition objects (l : list A) : list A := filter (fun x => negb (is_null x)) l.
  (** [x] is in order and calls back with the objects [l]. *)
  Definition inv (x : coll) (l : list A) : Prop :=
    match x with
    | CArr a => ainv A a l
    | CLnk s => exists vs, represents s vs /\ map fst vs = l
    | CHash t => refines t (enumerate t) /\ map snd (enumerate t) = l
    | CTree c t => compares A keq c /\ exists s, (good c t s /\ no_nulls (pairs s)) /\ map snd (pairs s) = l
    end.
  Definition pinv (x : coll) (m : list (A * A)) : Prop :=
    match x with
    | CHash t => refines t (enumerate t) /\ enumerate t = m
    | CTree c t => compares A keq c /\ exists s, (good c t s /\ no_nulls (pairs s)) /\ pairs s = m
    | _ => False
    end.

  Lemma height_deep : forall c t s, good c t s -> Tree_Fun.height A A s < deep A t.
  Proof. intros c t s G. unfold deep. rewrite (Tree_Runs.g_count _ _ _ _ _ G), Nat2Z.id. pose proof (Tree_Fun.height_size A A s). lia. Qed.
  Lemma snd_visited : forall m acc, Tree_Spec.visited A A (fun st (k v : A) => (st ++ [v], 0%Z)) acc m = (acc ++ map snd m, 0%Z).
  Proof.
    induction m as [|[k v] m IH]; intros acc; cbn [Tree_Spec.visited map]; [rewrite app_nil_r; auto|]. cbn [snd fst Z.eqb]. rewrite IH, <- app_assoc. auto.
  Qed.
  Lemma pinv_inv : forall x m, pinv x m -> inv x (map snd m).
  Proof. intros [a|s|t|c t] m H; cbn [inv pinv] in *; try contradiction; [destruct H as (H & <-); auto|]. destruct H as (C & s & (G & NN) & <-). eauto. Qed.
  Lemma inv_pinv : forall x l m, inv x l -> pairs_of x = Ok m -> pinv x m /\ l = map snd m.
  Proof.
    intros [a|s|t|c t] l m H E; cbn [inv pinv Convert_Model.pairs_of] in *; try discriminate.
    - destruct H as (H & <-). inversion E; subst. auto.
    - destruct H as (C & s & (G & NN) & <-). rewrite (Tree_Runs.traverse_ok A A c _ _ t s (deep A t) [] G (height_deep _ _ _ G)), Tree_Runs.all_visited in E. cbn [obind fst app] in E. inversion E; subst. split; [split; [exact C|exists s; auto]|reflexivity].
  Qed.
  Lemma pinv_pairs : forall x m, pinv x m -> pairs_of x = Ok m.
  Proof.
    intros [a|s|t|c t] m H; cbn [pinv Convert_Model.pairs_of] in *; try contradiction.
    - destruct H as (H & <-). auto.
    - destruct H as (C & s & (G & NN) & <-). rewrite (Tree_Runs.traverse_ok A A c _ _ t s (deep A t) [] G (height_deep _ _ _ G)), Tree_Runs.all_visited. auto.
  Qed.
  Definition visit (st l : list A) : list A * bool := (st ++ l, false).
  Lemma visit_nil : forall s, visit s [] = (s, false). Proof. intros. unfold visit. rewrite app_nil_r. auto. Qed.
  Lemma visit_cons : forall s x l, visit s (x :: l) = let '(s', b) := (s ++ [x], false) in if b then (s', true) else visit s' l.
  Proof. intros. unfold visit. rewrite <- app_assoc. auto. Qed.
  Lemma inv_objects : forall x l, inv x l -> objects_of x = Ok l.
  Proof.
    intros [a|s|t|c t] l H; cbn [inv Convert_Model.objects_of] in *.
    - rewrite (apply_ok A _ (fun st o => (st ++ [o], false)) visit visit_nil visit_cons a l [] H). auto.
    - destruct H as (vs & R & <-). rewrite (LinkedList_Proofs.apply_ok A P gt pzero _ (fun st o => (st ++ [o], false)) visit visit_nil visit_cons s vs [] R). auto.
    - destruct H as (H & <-). auto.
    - destruct H as (C & s & (G & NN) & <-). rewrite (Tree_Runs.traverse_ok A A c _ _ t s (deep A t) [] G (height_deep _ _ _ G)), snd_visited. auto.
  Qed.
  Lemma inv_count : forall x l, inv x l -> count_of x = Z.of_nat (length l).
  Proof.
    intros [a|s|t|c t] l H; cbn [inv Convert_Model.count_of] in *.
    - rewrite (ainv_len A a l H). auto.
    - destruct H as (vs & R & <-). rewrite (LinkedList_Proofs.represents_count A P gt pzero s vs R), map_length. auto.
    - destruct H as (H & <-). rewrite (count_refines A A hash keq t _ H). unfold amap_count. rewrite map_length. lia.
    - destruct H as (C & s & (G & NN) & <-). rewrite (Tree_Runs.g_count _ _ _ _ _ G), Tree_Runs.size_pairs, map_length. auto.
  Qed.
  Lemma pinv_distinct : forall x m, pinv x m -> keys_distinct A keq m.
  Proof.
    intros [a|s|t|c t] m H; cbn [pinv] in *; try contradiction.
    - destruct H as ((H & _) & <-). apply (enumerate_nd A A hash keq t H).
    - destruct H as (C & s & (G & NN) & <-). apply (ordered_distinct A keq c C). apply (Tree_Runs.g_ord _ _ _ _ _ G).
  Qed.

  (** Filling tables and trees. *)
  Definition hash_step (m : list (A * A)) (e : A * A) : list (A * A) := amap_set A A keq m (fst e) (snd e).
  Definition tree_step (c : A -> A -> Z) (m : list (A * A)) (e : A * A) : list (A * A) := Tree_Spec.put A A c m (fst e) (snd e) HashTable_Model.InsertAlways.
  Lemma hash_fold : forall l t m t', refines t m -> foreach_state (hash_put A hash keq) t l = Ok t' -> refines t' (fold_left hash_step l m).
  Proof.
    induction l as [|e l IH]; intros t m t' R H; cbn [foreach_state fold_left] in *; [inversion H; subst; exact R|].
    unfold hash_put in H. destruct (insert A A hash keq t (fst e) (snd e) HashTable_Model.InsertAlways) as [[t1 b]| | |] eqn:E; try discriminate. cbn [obind fst] in H.
    destruct (insert_refines A A hash keq Heq Hhash _ _ _ _ _ _ _ R E) as (R1 & _). eapply IH; [|exact H]. exact R1.
  Qed.
  Lemma put_no_nulls : forall c m e pol, no_nulls m -> is_null (fst e) = false -> no_nulls (Tree_Spec.put A A c m (fst e) (snd e) pol).
  Proof.
    intros c m e pol H N. induction H as [|[a b] m Ha H IH]; cbn [Tree_Spec.put].
    - destruct pol; repeat constructor; exact N.
    - destruct (c a (fst e) <? 0)%Z; [destruct pol; repeat constructor; auto|]. destruct (c a (fst e) =? 0)%Z; [destruct pol; repeat constructor; auto|]. constructor; auto.
  Qed.
  Lemma tree_fold : forall c, compares A keq c -> forall l t s, good c t s -> no_nulls (pairs s) ->
    exists t' s', foreach_state (tree_put A is_null c) t l = Ok t' /\ (good c t' s' /\ no_nulls (pairs s')) /\ pairs s' = fold_left (tree_step c) (filter with_key l) (pairs s).
  Proof.
    intros c C. induction l as [|e l IH]; intros t s G NN; cbn [foreach_state filter]; [exists t, s; auto|].
    unfold tree_put at 1. unfold with_key at 1. destruct (is_null (fst e)) eqn:N; cbn [negb obind]; [apply (IH t s G NN)|]. cbn [fold_left].
    destruct (Tree_Runs.insert_ok A A c (proj1 C) t s (deep A t) (fst e) (snd e) HashTable_Model.InsertAlways G (height_deep _ _ _ G)) as (t1 & s1 & E1 & G1 & P1).
    rewrite E1. cbn [obind]. destruct (IH t1 s1 G1) as (t2 & s2 & E2 & G2 & P2); [rewrite P1; apply put_no_nulls; assumption|]. exists t2, s2. split; [exact E2|]. split; [exact G2|]. rewrite P2, P1. reflexivity.
  Qed.
  Lemma refines_self : forall t m, refines t m -> refines t (enumerate t). Proof. intros t m (H & _). split; [exact H|reflexivity]. Qed.
  Lemma hash_pinv : forall l t, foreach_state (hash_put A hash keq) table_init l = Ok t -> exists m, pinv (CHash t) m /\ Permutation m (fold_left hash_step l []).
  Proof.
    intros l t H. pose proof (hash_fold l _ [] t (refines_init A A hash keq) H) as R. exists (enumerate t). split; [split; [eapply refines_self; eauto|auto]|apply R].
  Qed.
  Lemma tree_pinv : forall c, compares A keq c -> forall l, exists t, foreach_state (tree_put A is_null c) (Tree_Model.init A A) l = Ok t /\ pinv (CTree c t) (fold_left (tree_step c) (filter with_key l) []).
  Proof.
    intros c C l. destruct (tree_fold c C l _ _ (Tree_Runs.good_init A A c) (Forall_nil _)) as (t & s & E & G & Q). exists t. split; [exact E|]. split; [exact C|]. exists s. split; [exact G|]. rewrite Q. reflexivity.
  Qed.
  Lemma J_perm : forall m m' l, Permutation m m' -> J m l -> J m' l.
  Proof.
    intros m m' l Q (J1 & J2). split.
    - intros e He. apply J1. apply (Permutation_in _ (Permutation_sym Q) He).
    - intros x Hx. destruct (J2 x Hx) as (e & He & K). exists e. split; [apply (Permutation_in _ Q He)|exact K].
  Qed.
  Lemma hash_of_ok : forall l x, hash_of A hash keq P l = Ok x -> exists m, pinv x m /\ J m l.
  Proof.
    intros l x H. unfold hash_of in H. destruct (foreach_state (hash_put A hash keq) table_init (map (twice A) l)) as [t| | |] eqn:E; try discriminate. cbn [obind] in H. inversion H; subst.
    destruct (hash_pinv _ _ E) as (m & I & Q). exists m. split; [exact I|]. apply (J_perm _ _ _ (Permutation_sym Q)). apply (J_fold A keq Heq hash_step (fun m e => amap_setk A keq Heq m e) l [] []). apply J_nil.
  Qed.
  Lemma twice_filter : forall l, filter with_key (map (twice A) l) = map (twice A) (objects l).
  Proof. induction l as [|x l IH]; cbn [map filter objects]; [reflexivity|]. unfold with_key at 1, objects. cbn [twice fst filter]. destruct (is_null x); cbn [negb map]; rewrite IH; reflexivity. Qed.
  Lemma tree_of_ok : forall l, exists x m, tree_of A is_null kcmp P l = Ok x /\ pinv x m /\ J m (objects l) /\ Tree_Spec.ordered A A kcmp m.
  Proof.
    intros l. unfold tree_of. destruct (tree_pinv kcmp Hcmp (map (twice A) l)) as (t & E & I). rewrite E. cbn [obind]. eexists _, _. split; [reflexivity|]. split; [exact I|]. split.
    - rewrite twice_filter. apply (J_fold A keq Heq (tree_step kcmp) (fun m e => put_setk A keq Heq kcmp Hcmp m e) (objects l) [] []). apply J_nil.
    - destruct I as (_ & s & (G & _) & <-). apply (Tree_Runs.g_ord _ _ _ _ _ G).
  Qed.

  (** New lists. *)
  Definition linv (x : coll) (l : list A) : Prop :=
    match x with CArr a => ainv A a l | CLnk s => represents s (plain A P pzero l) | _ => False end.
  Lemma plain_fst : forall l, map fst (plain A P pzero l) = l.
  Proof. intros l. unfold plain. rewrite map_map. apply map_id. Qed.
  Lemma linv_inv : forall x l, linv x l -> inv x l.
  Proof. intros [a|s|t|c t] l H; cbn [linv inv] in *; auto; try contradiction. exists (plain A P pzero l). split; [exact H|apply plain_fst]. Qed.
  Lemma linv_lists : forall x l, linv x l -> lists A P pzero x l.
  Proof.
    intros [a|s|t|c t] l H; cbn [linv lists] in *; auto.
    - apply (ainv_shows A null a l H).
    - apply (LinkedList_Proofs.represents_shows A P gt pzero). exact H.
  Qed.
  Lemma new_array_ok : forall l, exists a, new_array A null (Z.of_nat (length l)) l = Ok a /\ ainv A a l.
  Proof.
    intros l. unfold new_array. rewrite Nat2Z.id. destruct (replace_ok A null array_init [] 0 0 None (length l) (repeat null (length l)) (ainv_init A)) as (a & E & I); [cbn; lia|apply repeat_length|right; auto|].
    rewrite E. cbn [obind]. destruct (writes_ok A l a _ 0 I) as (a' & E' & I'); [unfold splice; cbn; rewrite app_nil_r, repeat_length; lia|]. exists a'. split; [exact E'|].
    replace (splice A _ 0 (length l) l) with l in I' by (unfold splice; cbn [firstn skipn app Nat.add]; rewrite app_nil_r, <- (repeat_length null (length l)) at 1; rewrite skipn_all, app_nil_r; auto). exact I'.
  Qed.
  Lemma seq_replace_new : forall B (l : list B), seq_replace B [] 0 0 l = l.
  Proof. intros B l. unfold seq_replace. cbn. unfold splice. cbn. apply app_nil_r. Qed.
  Lemma new_linked_ok : forall l, exists s, llist_replace_range A P pzero (llist_init A P) 0 0 l = Ok s /\ represents s (plain A P pzero l).
  Proof.
    intros l. destruct (LinkedList_Proofs.replace_range_ok A P gt pzero (llist_init A P) [] 0 0 l (LinkedList_Proofs.represents_init A P)) as (s & E & R); [vm_compute; discriminate|]. exists s. split; [exact E|]. rewrite seq_replace_new in R. exact R.
  Qed.
  Definition list_kind (k : kind) : Prop := k = KArray \/ k = KLinked.
  Lemma make_list : forall k x l, list_kind k -> inv x l -> exists y, make k x = Ok y /\ linv y l.
  Proof.
    intros k x l K I. unfold Convert_Model.make. rewrite (inv_objects x l I). cbn [obind]. destruct K as [->| ->].
    - rewrite (inv_count x l I). destruct (new_array_ok l) as (a & E & H). rewrite E. exists (CArr a). auto.
    - destruct (new_linked_ok l) as (s & E & H). rewrite E. exists (CLnk s). auto.
  Qed.
  Lemma of_c_list : forall k l, list_kind k -> exists y, of_c_array A null is_null hash keq kcmp P pzero k l = Ok y /\ linv y l.
  Proof.
    intros k l [->| ->]; cbn [of_c_array].
    - destruct (array_replace_range_ok A null array_init [] 0 0 l (ainv_init A)) as (a & E & H); [vm_compute; discriminate|]. rewrite E. exists (CArr a). split; [auto|]. rewrite seq_replace_new in H. exact H.
    - destruct (new_linked_ok l) as (s & E & H). rewrite E. exists (CLnk s). auto.
  Qed.
  Lemma append_ok : forall a l x, ainv A a l -> (Z.of_nat (length l) <= INT64_MAX)%Z -> exists a', append A null a x = Ok a' /\ ainv A a' (l ++ [x]).
  Proof.
    intros a l x I B. unfold append. rewrite (ainv_len A a l I). destruct (array_replace_range_ok A null a l (Z.of_nat (length l)) 0 [x] I ltac:(lia)) as (a' & E & H). exists a'. split; [exact E|].
    unfold seq_replace, valid_range in H. replace (_ && _ && _)%bool with true in H by (symmetry; rewrite !andb_true_iff; repeat split; apply Z.leb_le; lia). unfold splice in H. rewrite Nat2Z.id, firstn_all, Nat.add_0_r, skipn_all in H. exact H.
  Qed.
  Lemma appends_ok : forall new a l, ainv A a l -> (Z.of_nat (length l) + Z.of_nat (length new) <= INT64_MAX)%Z -> exists a', foreach_state (append A null) a new = Ok a' /\ ainv A a' (l ++ new).
  Proof.
    induction new as [|x new IH]; intros a l I B; cbn [foreach_state length] in *; [rewrite app_nil_r; eauto|].
    destruct (append_ok a l x I ltac:(lia)) as (a1 & E1 & I1). rewrite E1. cbn [obind]. destruct (IH a1 (l ++ [x]) I1) as (a2 & E2 & I2); [rewrite app_length; cbn [length]; lia|]. exists a2. split; [exact E2|]. rewrite <- app_assoc in I2. exact I2.
  Qed.
  Lemma linked_appends_ok : forall new s l, represents s (plain A P pzero l) -> exists s', foreach_state (fun s x => insert_object A P pzero s (lcount A P s) x) s new = Ok s' /\ represents s' (plain A P pzero (l ++ new)).
  Proof.
    induction new as [|x new IH]; intros s l R; cbn [foreach_state]; [rewrite app_nil_r; eauto|].
    rewrite (LinkedList_Proofs.represents_count A P gt pzero s _ R). destruct R as (ns & R). pose proof (LinkedList_Proofs.lrep_len A P gt pzero s _ _ (proj1 R)) as (_ & L).
    destruct (LinkedList_Proofs.insert_ok A P gt pzero s ns [] (plain A P pzero l) [] x) as (s1 & a & E & R1 & _); [rewrite !app_nil_r; apply R|exact L|intros _ K; congruence|].
    rewrite L in E. rewrite E. cbn [obind]. destruct (IH s1 (l ++ [x])) as (s2 & E2 & R2); [exists (ns ++ [a]); unfold plain in *; rewrite map_app; exact R1|]. exists s2. split; [exact E2|]. rewrite <- app_assoc in R2. exact R2.
  Qed.
  Lemma given_length : forall l, length (given A is_null l) <= length l.
  Proof. induction l as [|x l IH]; cbn; [lia|]. destruct (is_null x); cbn; lia. Qed.
  Lemma arguments_list : forall k l, list_kind k -> (Z.of_nat (length l) <= INT64_MAX)%Z -> exists y, of_arguments A null is_null hash keq kcmp P pzero k l = Ok y /\ linv y (given A is_null l).
  Proof.
    intros k l [->| ->] B; cbn [of_arguments].
    - pose proof (given_length l). destruct (appends_ok (given A is_null l) array_init [] (ainv_init A)) as (a & E & I); [cbn [length]; lia|]. rewrite E. exists (CArr a). auto.
    - destruct (linked_appends_ok (given A is_null l) (llist_init A P) []) as (s & E & R); [apply LinkedList_Proofs.represents_init|]. rewrite E. exists (CLnk s). auto.
  Qed.

  (** Dictionaries of dictionaries. *)
  Lemma dict_hash : forall l t, keys_distinct A keq l -> foreach_state (hash_put A hash keq) table_init l = Ok t -> exists m, pinv (CHash t) m /\ Permutation m l.
  Proof.
    intros l t D H. destruct (hash_pinv l t H) as (m & I & Q). exists m. split; [exact I|]. rewrite Q. rewrite (perm_fold A keq hash_step (fun m e => amap_fresh A keq m e) l [] D); [rewrite app_nil_r; reflexivity|intros a b _ []].
  Qed.
  Lemma filter_distinct : forall f l, keys_distinct A keq l -> keys_distinct A keq (filter f l).
  Proof.
    intros f l D. induction D as [|a l F D IH]; cbn [filter]; [constructor|]. destruct (f a); [|exact IH]. constructor; [|exact IH]. rewrite Forall_forall in *. intros y Hy. apply F. apply filter_In in Hy. apply Hy.
  Qed.
  Lemma no_nulls_filter : forall m, no_nulls m -> filter with_key m = m.
  Proof. intros m H. induction H as [|e m N H IH]; cbn [filter]; [reflexivity|]. unfold with_key at 1. rewrite N. cbn [negb]. rewrite IH. reflexivity. Qed.
  Lemma dict_tree : forall c l, compares A keq c -> keys_distinct A keq l -> exists t m, foreach_state (tree_put A is_null c) (Tree_Model.init A A) l = Ok t /\ pinv (CTree c t) m /\ Permutation m (filter with_key l).
  Proof.
    intros c l C D. destruct (tree_pinv c C l) as (t & E & I). eexists t, _. split; [exact E|]. split; [exact I|]. rewrite (perm_fold A keq (tree_step c) (fun m e => put_fresh A keq c C m e) (filter with_key l) [] (filter_distinct _ _ D)); [rewrite app_nil_r; reflexivity|intros a b _ []].
  Qed.
  Lemma make_dict_ok : forall k x m y, pinv x m -> make_dict A is_null hash keq kcmp P k x = Ok y -> exists m', pinv y m' /\ Permutation m' (match k with KTree => filter with_key m | _ => m end).
  Proof.
    intros k x m y I H. unfold make_dict in H. rewrite (pinv_pairs x m I) in H. cbn [obind] in H. destruct k; try discriminate.
    - destruct (foreach_state (hash_put A hash keq) table_init m) as [t| | |] eqn:E; try discriminate. inversion H; subst. apply dict_hash; [|exact E]. eapply pinv_distinct; eauto.
    - destruct (dict_tree kcmp m Hcmp (pinv_distinct x m I)) as (t & m' & E & Q). rewrite E in H. inversion H; subst. eauto.
  Qed.
  Lemma pinv_not_pairs : forall x m, pinv x m -> match x with CArr _ | CLnk _ => False | _ => True end.
  Proof. intros [| | |] m H; auto. Qed.
  Lemma copy_dict_ok : forall x m y, pinv x m -> copy A null is_null hash keq kcmp P pzero x = Ok y -> exists m', pinv y m' /\ Permutation m' m.
  Proof.
    intros x m y I H. pose proof (pinv_not_pairs x m I) as N. destruct x as [a|s|t|c t]; try contradiction; cbn [copy] in H.
    - apply (make_dict_ok KHash _ m y I H).
    - rewrite (pinv_pairs _ m I) in H. cbn [obind] in H. destruct (dict_tree c m (proj1 I) (pinv_distinct _ m I)) as (t' & m' & E & I' & Q). rewrite E in H. inversion H; subst. exists m'. split; [exact I'|]. destruct I as (_ & s & (_ & NN) & <-). rewrite (no_nulls_filter _ NN) in Q. exact Q.
  Qed.

  (** Every collection is in order. *)
  Lemma make_inv : forall k x l y, inv x l -> make k x = Ok y -> exists l', inv y l'.
  Proof.
    intros k x l y I H. destruct k.
    - destruct (make_list KArray x l (or_introl eq_refl) I) as (z & E & L). rewrite E in H. inversion H; subst. exists l. apply linv_inv. exact L.
    - destruct (make_list KLinked x l (or_intror eq_refl) I) as (z & E & L). rewrite E in H. inversion H; subst. exists l. apply linv_inv. exact L.
    - unfold Convert_Model.make in H. rewrite (inv_objects x l I) in H. cbn [obind] in H. destruct (hash_of_ok l y H) as (m & Q & _). exists (map snd m). apply pinv_inv. exact Q.
    - unfold Convert_Model.make in H. rewrite (inv_objects x l I) in H. cbn [obind] in H. destruct (tree_of_ok l) as (z & m & E & Q & _). rewrite E in H. inversion H; subst. exists (map snd m). apply pinv_inv. exact Q.
  Qed.
  Lemma make_dict_inv : forall k x l y, inv x l -> make_dict A is_null hash keq kcmp P k x = Ok y -> exists l', inv y l'.
  Proof.
    intros k x l y I H. pose proof H as H0. unfold make_dict in H. destruct (pairs_of x) as [m| | |] eqn:E; try discriminate. destruct (inv_pinv x l m I E) as (Q & _). destruct (make_dict_ok k x m y Q H0) as (m' & Q' & _). exists (map snd m'). apply pinv_inv. exact Q'.
  Qed.
  Lemma mrun_no_nulls : forall c os m, existsb (null_tree_key A is_null) os = false -> no_nulls m -> no_nulls (fst (Tree_Spec.mrun A A c m os)).
  Proof.
    intros c. induction os as [|o os IH]; intros m H N; cbn [existsb Tree_Spec.mrun] in *; [exact N|]. apply orb_false_iff in H. destruct H as (H1 & H2).
    assert (N1 : no_nulls (fst (Tree_Spec.mstep A A c m o))).
    { destruct o as [k v pol|k| |k| |]; cbn [Tree_Spec.mstep fst null_tree_key] in *; auto; [apply (put_no_nulls c m (k, v) pol N H1)|apply incl_Forall with (l1 := m); [|exact N]; intros y Hy; unfold Tree_Spec.without in Hy; apply filter_In in Hy; apply Hy|constructor]. }
    destruct (Tree_Spec.mstep A A c m o) as [m1 r]. specialize (IH m1 H2 N1). destruct (Tree_Spec.mrun A A c m1 os) as [m2 rs]. exact IH.
  Qed.
  Lemma build_inv : forall e x, proper A keq P e -> build e = Ok x -> exists l, inv x l.
  Proof.
    induction e as [os|os|os|c os|k l|k l|k e IH|k e IH|k e IH|e IH]; intros x Hp H; cbn [Convert_Model.build proper] in *.
    - destruct (array_run A null array_init os) as [[a rs]| | |] eqn:E; try discriminate. inversion H; subst. destruct (run_ainv A null os a rs Hp E) as (_ & I). eexists. exact I.
    - destruct Hp as (F & B). destruct (LinkedList_Proofs.run_ok A oid P gt pzero os (llist_init A P) [] (LinkedList_Proofs.represents_init A P) F) as (s & vs & rs & E & _ & R); [cbn [length]; lia|]. rewrite E in H. inversion H; subst. exists (map fst vs), vs. auto.
    - destruct (existsb (null_key A is_null) os); [discriminate|]. destruct (run A A hash keq table_init os) as [[t rs]| | |] eqn:E; try discriminate. inversion H; subst. destruct (run_refines A A hash keq Heq Hhash os _ [] _ _ (refines_init A A hash keq) E) as (R & _). eexists. split; [eapply refines_self; exact R|reflexivity].
    - destruct (existsb (null_tree_key A is_null) os) eqn:NK; [discriminate|]. destruct (Tree_Runs.run_ok A A c (proj1 Hp) os _ _ (S (length os)) (Tree_Runs.good_init A A c)) as (t & s & E & G & Q); [cbn; lia|]. rewrite E in H. inversion H; subst. eexists. split; [exact Hp|]. exists s. split; [split; [exact G|]|reflexivity]. rewrite Q. apply mrun_no_nulls; [exact NK|constructor].
    - destruct k; cbn [of_c_array] in H.
      + destruct (of_c_list KArray l (or_introl eq_refl)) as (y & E & L). cbn [of_c_array] in E. rewrite E in H. inversion H; subst. exists l. apply linv_inv. exact L.
      + destruct (of_c_list KLinked l (or_intror eq_refl)) as (y & E & L). cbn [of_c_array] in E. rewrite E in H. inversion H; subst. exists l. apply linv_inv. exact L.
      + destruct (hash_of_ok l x H) as (m & Q & _). exists (map snd m). apply pinv_inv. exact Q.
      + destruct (tree_of_ok l) as (z & m & E & Q & _). rewrite E in H. inversion H; subst. exists (map snd m). apply pinv_inv. exact Q.
    - destruct k; cbn [of_arguments] in H.
      + destruct (arguments_list KArray l (or_introl eq_refl) Hp) as (y & E & L). cbn [of_arguments] in E. rewrite E in H. inversion H; subst. eexists. apply linv_inv. exact L.
      + destruct (arguments_list KLinked l (or_intror eq_refl) Hp) as (y & E & L). cbn [of_arguments] in E. rewrite E in H. inversion H; subst. eexists. apply linv_inv. exact L.
      + destruct (hash_of_ok _ x H) as (m & Q & _). exists (map snd m). apply pinv_inv. exact Q.
      + destruct (tree_of_ok (given A is_null l)) as (z & m & E & Q & _). rewrite E in H. inversion H; subst. exists (map snd m). apply pinv_inv. exact Q.
    - destruct (build e) as [y| | |] eqn:E; try discriminate. cbn [obind] in H. destruct (IH y Hp eq_refl) as (l & I). eapply make_inv; eauto.
    - destruct (build e) as [y| | |] eqn:E; try discriminate. cbn [obind list_set] in H. destruct (IH y Hp eq_refl) as (l & I). destruct (make KHash y) as [z| | |] eqn:E2; try discriminate. cbn [obind] in H. destruct (make_inv KHash y l z I E2) as (l2 & I2). eapply make_inv; eauto.
    - destruct (build e) as [y| | |] eqn:E; try discriminate. cbn [obind] in H. destruct (IH y Hp eq_refl) as (l & I). eapply make_dict_inv; eauto.
    - destruct (build e) as [y| | |] eqn:E; try discriminate. cbn [obind] in H. destruct (IH y Hp eq_refl) as (l & I). destruct y as [a|s|t|c t].
      + eapply (make_inv KArray); eauto.
      + eapply (make_inv KLinked); eauto.
      + eapply (make_dict_inv KHash); eauto.
      + pose proof I as I0. destruct I0 as (C & s & G & Q). assert (PI : pinv (CTree c t) (pairs s)) by (split; [exact C|eauto]). destruct (copy_dict_ok _ _ _ PI H) as (m' & Q' & _). exists (map snd m'). apply pinv_inv. exact Q'.
  Qed.
End Proofs.
