Require Import Coq.ZArith.ZArith Coq.Lists.List Coq.Bool.Bool Coq.Arith.Arith Coq.micromega.Lia.
Require Import Coq.Sorting.Permutation Coq.Sorting.Sorted.
Require Import Verif.Base Verif.Sort_Model Verif.Sort_Spec.
Import ListNotations.
Local Open Scope Z_scope.

Section Arrays.
  Variable A : Type.
  Notation get := (get A).
  Notation set := (set A).
  Notation swap := (swap A).

  Lemma get_ok_iff : forall l i x, get l i = Ok x <-> 0 <= i /\ nth_error l (Z.to_nat i) = Some x.
  Proof.
    intros. unfold Sort_Model.get. destruct (0 <=? i) eqn:E.
    - apply Z.leb_le in E. destruct (nth_error l (Z.to_nat i)); split; intros H; try discriminate.
      + inversion H. auto.
      + destruct H. congruence.
      + destruct H. congruence.
    - apply Z.leb_gt in E. split; intros; [discriminate|lia].
  Qed.

  Lemma get_range : forall l i, 0 <= i < Z.of_nat (length l) -> exists x, get l i = Ok x.
  Proof.
    intros. destruct (nth_error l (Z.to_nat i)) eqn:E.
    - exists a. apply get_ok_iff. split; [lia|auto].
    - apply nth_error_None in E. lia.
  Qed.

  Lemma get_lt : forall l i x, get l i = Ok x -> 0 <= i < Z.of_nat (length l).
  Proof.
    intros. apply get_ok_iff in H. destruct H as [H1 H2].
    assert (Z.to_nat i < length l)%nat by (apply nth_error_Some; congruence). lia.
  Qed.

  Lemma set_range : forall l i x, 0 <= i < Z.of_nat (length l) -> set l i x = Ok (upd l (Z.to_nat i) x).
  Proof.
    intros. unfold Sort_Model.set.
    assert (E : (0 <=? i) && (i <? Z.of_nat (length l)) = true) by (apply andb_true_iff; split; [apply Z.leb_le|apply Z.ltb_lt]; lia).
    rewrite E. auto.
  Qed.

  Lemma get_upd_eq : forall l i x, 0 <= i < Z.of_nat (length l) -> get (upd l (Z.to_nat i) x) i = Ok x.
  Proof. intros. apply get_ok_iff. split; [lia|]. apply nth_error_upd_eq. lia. Qed.

  Lemma get_upd_neq : forall l i j x, 0 <= i -> i <> j -> get (upd l (Z.to_nat i) x) j = get l j.
  Proof.
    intros. unfold Sort_Model.get. destruct (0 <=? j) eqn:E; auto. apply Z.leb_le in E.
    rewrite nth_error_upd_neq by lia. auto.
  Qed.

  Lemma upd_same : forall (l : list A) n x, nth_error l n = Some x -> upd l n x = l.
  Proof.
    induction l; destruct n; simpl; intros; try discriminate; [congruence|f_equal; auto].
  Qed.

  Lemma upd_app_l : forall (l1 l2 : list A) n x, (n < length l1)%nat -> upd (l1 ++ l2) n x = upd l1 n x ++ l2.
  Proof. induction l1; destruct n; simpl; intros; auto; try lia. f_equal. apply IHl1. lia. Qed.

  Lemma upd_app_r : forall (l1 l2 : list A) n x, upd (l1 ++ l2) (length l1 + n) x = l1 ++ upd l2 n x.
  Proof. induction l1; simpl; intros; auto. f_equal. apply IHl1. Qed.

  Lemma nth_error_app_r : forall (l1 l2 : list A) n, nth_error (l1 ++ l2) (length l1 + n) = nth_error l2 n.
  Proof. induction l1; simpl; intros; auto. Qed.

  Lemma upd_swap_perm_lt : forall (l : list A) i j x y, (i < j)%nat ->
    nth_error l i = Some x -> nth_error l j = Some y ->
    Permutation l (upd (upd l i y) j x).
  Proof.
    intros l i j x y Hij Hx Hy.
    destruct (upd_split _ l i y x Hx) as (l1 & l2 & -> & Hl & ->).
    assert (Ej : (j = length l1 + S (j - i - 1))%nat) by lia. rewrite Ej in Hy |- *.
    rewrite nth_error_app_r in Hy. rewrite upd_app_r. cbn [nth_error] in Hy. cbn [upd].
    destruct (upd_split _ l2 _ x y Hy) as (l3 & l4 & -> & _ & ->).
    apply Permutation_app_head.
    eapply Permutation_trans; [apply perm_skip, Permutation_sym, Permutation_middle|].
    eapply Permutation_trans; [apply perm_swap|].
    apply perm_skip. apply Permutation_middle.
  Qed.

  Lemma nth_error_ext : forall (a b : list A), (forall n, nth_error a n = nth_error b n) -> a = b.
  Proof.
    induction a; destruct b; intros H; auto.
    - specialize (H 0%nat). discriminate.
    - specialize (H 0%nat). discriminate.
    - assert (H0 := H 0%nat). simpl in H0. f_equal; [congruence|]. apply IHa. intros n. apply (H (S n)).
  Qed.

  Lemma swap_ok : forall l i j, 0 <= i < Z.of_nat (length l) -> 0 <= j < Z.of_nat (length l) ->
    exists l', swap l i j = Ok l' /\ length l' = length l /\ Permutation l l' /\
      get l' i = get l j /\ get l' j = get l i /\
      (forall k, k <> i -> k <> j -> get l' k = get l k).
  Proof.
    intros l i j Hi Hj. destruct (get_range l i Hi) as (x & Hx). destruct (get_range l j Hj) as (y & Hy).
    unfold Sort_Model.swap. rewrite Hx, Hy. cbn [obind]. rewrite set_range by auto. cbn [obind].
    rewrite set_range by (rewrite upd_length; auto).
    eexists. split; [reflexivity|]. split; [rewrite !upd_length; auto|].
    assert (Hx' := Hx). assert (Hy' := Hy). apply get_ok_iff in Hx', Hy'. destruct Hx' as [_ Hx'], Hy' as [_ Hy'].
    split; [|split; [|split]].
    - destruct (Z.lt_trichotomy i j) as [H|[H|H]].
      + apply upd_swap_perm_lt; auto. lia.
      + subst j. assert (x = y) by congruence. subst y. rewrite !(upd_same l) by auto. auto.
      + assert (E : upd (upd l (Z.to_nat i) y) (Z.to_nat j) x = upd (upd l (Z.to_nat j) x) (Z.to_nat i) y).
        { apply nth_error_ext. intros n.
          destruct (Nat.eq_dec n (Z.to_nat i)) as [->|N1].
          - rewrite nth_error_upd_neq by lia. rewrite nth_error_upd_eq by lia.
            rewrite nth_error_upd_eq; auto. rewrite upd_length. lia.
          - destruct (Nat.eq_dec n (Z.to_nat j)) as [->|N2].
            + rewrite nth_error_upd_eq by (rewrite upd_length; lia).
              rewrite nth_error_upd_neq by lia. rewrite nth_error_upd_eq; auto. lia.
            + rewrite !nth_error_upd_neq by lia. auto. }
        rewrite E. apply upd_swap_perm_lt; auto. lia.
    - destruct (Z.eq_dec i j) as [->|N].
      + rewrite get_upd_eq by (rewrite upd_length; auto). congruence.
      + rewrite get_upd_neq by lia. rewrite get_upd_eq by auto. auto.
    - rewrite get_upd_eq by (rewrite upd_length; auto). auto.
    - intros k N1 N2. rewrite !get_upd_neq by lia. auto.
  Qed.
End Arrays.

Section Sort.
  Variable A : Type.
  Variable cmp : A -> A -> Z.
  Hypothesis Hcmp : consistent A cmp.
  Notation get := (get A).
  Notation set := (set A).
  Notation swap := (swap A).

  Lemma cmp_sym : forall a b, 0 <= cmp a b -> cmp b a <= 0.
  Proof. intros. destruct Hcmp as [H1 _]. specialize (H1 a b). destruct (Z.sgn_spec (cmp a b)) as [[]|[[]|[]]], (Z.sgn_spec (cmp b a)) as [[]|[[]|[]]]; lia. Qed.
  Lemma cmp_sym' : forall a b, cmp a b <= 0 -> 0 <= cmp b a.
  Proof. intros. destruct Hcmp as [H1 _]. specialize (H1 a b). destruct (Z.sgn_spec (cmp a b)) as [[]|[[]|[]]], (Z.sgn_spec (cmp b a)) as [[]|[[]|[]]]; lia. Qed.
  Lemma cmp_refl : forall a, cmp a a = 0.
  Proof. intros. destruct Hcmp as [H1 _]. specialize (H1 a a). destruct (Z.sgn_spec (cmp a a)) as [[]|[[]|[]]]; lia. Qed.
  Lemma cmp_trans : forall a b c, 0 <= cmp a b -> 0 <= cmp b c -> 0 <= cmp a c.
  Proof. apply Hcmp. Qed.

  Lemma get_app : forall (l1 l2 : list A) i k, i = Z.of_nat (length l1) + Z.of_nat k -> get (l1 ++ l2) i = match nth_error l2 k with Some x => Ok x | None => UB end.
  Proof.
    intros. subst. unfold Sort_Model.get.
    assert (E : 0 <=? Z.of_nat (length l1) + Z.of_nat k = true) by (apply Z.leb_le; lia). rewrite E.
    replace (Z.to_nat (Z.of_nat (length l1) + Z.of_nat k)) with (length l1 + k)%nat by lia.
    rewrite nth_error_app_r. auto.
  Qed.

  Lemma set_app : forall (l1 l2 : list A) y i x, i = Z.of_nat (length l1) -> set (l1 ++ y :: l2) i x = Ok (l1 ++ x :: l2).
  Proof.
    intros. subst. rewrite set_range by (rewrite app_length; simpl; lia).
    f_equal. rewrite Nat2Z.id. rewrite <- (Nat.add_0_r (length l1)), upd_app_r. auto.
  Qed.

  (** ** Insertion sort *)
  Lemma insertion_shift_ok : forall S fuel P y T x base j,
    base = Z.of_nat (length P) -> j = Z.of_nat (length S) - 1 -> (length S < fuel)%nat ->
    exists S1 S2, S = S1 ++ S2 /\ Forall (fun s => cmp s x < 0) S2 /\
      (forall S0 s, S1 = S0 ++ [s] -> 0 <= cmp s x) /\
      insertion_shift A cmp fuel (P ++ S ++ y :: T) base j x = Ok (P ++ S1 ++ x :: S2 ++ T).
  Proof.
    induction S as [|s S IH] using rev_ind; intros fuel P y T x base j Hb Hj Hf.
    - exists [], []. split; auto. split; auto. split; [intros S0 s H; destruct S0; discriminate|].
      destruct fuel; [simpl in Hf; lia|]. simpl in Hj. simpl insertion_shift.
      assert (E : 0 <=? j = false) by (apply Z.leb_gt; lia). rewrite E.
      cbn [app]. apply set_app. lia.
    - destruct fuel; [lia|]. rewrite app_length in *. cbn [length] in *. cbn [insertion_shift].
      assert (E : 0 <=? j = true) by (apply Z.leb_le; lia). rewrite E.
      assert (Hget : get (P ++ (S ++ [s]) ++ y :: T) (base + j) = Ok s).
      { rewrite <- app_assoc, app_assoc. rewrite (get_app _ _ _ 0); auto. rewrite app_length. lia. }
      rewrite Hget. cbn [obind].
      assert (Hset : forall z, set (P ++ (S ++ [s]) ++ y :: T) (base + j + 1) z = Ok (P ++ (S ++ [s]) ++ z :: T)).
      { intros z. rewrite app_assoc. rewrite set_app; [rewrite <- app_assoc; auto|]. rewrite !app_length. simpl. lia. }
      destruct (cmp s x <? 0) eqn:Ec.
      + apply Z.ltb_lt in Ec. rewrite Hset. cbn [obind].
        destruct (IH fuel P s (s :: T) x base (j - 1)) as (S1 & S2 & -> & H2 & H1 & Hr); auto; try lia.
        exists S1, (S2 ++ [s]). split; [rewrite app_assoc; auto|]. split; [apply Forall_app; auto|].
        split; auto. rewrite <- (app_assoc (S1 ++ S2)). cbn [app]. rewrite Hr. rewrite <- (app_assoc S2). auto.
      + apply Z.ltb_ge in Ec. exists (S ++ [s]), []. split; [rewrite app_nil_r; auto|]. split; auto.
        split; [intros S0 s0 H; apply app_inj_tail in H; destruct H; subst; auto|].
        rewrite Hset. auto.
  Qed.

  Notation ordered := (ordered A cmp).

  Lemma ordered_app : forall l1 l2, ordered l1 -> ordered l2 ->
    (forall a b, In a l1 -> In b l2 -> 0 <= cmp a b) -> ordered (l1 ++ l2).
  Proof.
    unfold Sort_Spec.ordered. induction l1; simpl; intros l2 H1 H2 H; auto.
    inversion H1; subst. constructor.
    - apply IHl1; auto.
    - apply Forall_app. split; auto. apply Forall_forall. auto.
  Qed.

  Lemma ordered_app_inv : forall l1 l2, ordered (l1 ++ l2) ->
    ordered l1 /\ ordered l2 /\ (forall a b, In a l1 -> In b l2 -> 0 <= cmp a b).
  Proof.
    unfold Sort_Spec.ordered. induction l1; simpl; intros l2 H.
    - split; [constructor|]. split; auto. intros. contradiction.
    - inversion H; subst. destruct (IHl1 _ H2) as (A1 & A2 & A3). apply Forall_app in H3. destruct H3.
      split; [constructor; auto|]. split; auto.
      intros x y [->|Hx] Hy; auto. rewrite Forall_forall in H1. auto.
  Qed.

  Lemma ordered_insert : forall S1 S2 x, ordered (S1 ++ S2) -> Forall (fun s => cmp s x < 0) S2 ->
    (forall S0 s, S1 = S0 ++ [s] -> 0 <= cmp s x) -> ordered (S1 ++ x :: S2).
  Proof.
    intros S1 S2 x Ho H2 H1. destruct (ordered_app_inv _ _ Ho) as (A1 & A2 & A3).
    rewrite Forall_forall in H2.
    assert (Hx2 : forall s, In s S2 -> 0 <= cmp x s) by (intros; apply cmp_sym'; specialize (H2 _ H); lia).
    assert (Hx1 : forall s, In s S1 -> 0 <= cmp s x).
    { destruct S1 as [|s1 S1 _] using rev_ind; [intros; contradiction|].
      specialize (H1 _ _ eq_refl). intros s Hs. apply in_app_iff in Hs. destruct Hs as [Hs|[<-|[]]]; auto.
      destruct (ordered_app_inv _ _ A1) as (_ & _ & B). eapply cmp_trans; [apply B; [auto|left; auto]|auto]. }
    apply ordered_app; auto.
    - constructor; auto. apply Forall_forall. auto.
    - intros a b Ha [<-|Hb]; auto.
  Qed.

  Lemma insertion_loop_ok : forall R S P Q base i,
    base = Z.of_nat (length P) -> i = Z.of_nat (length S) -> (0 < length S)%nat -> ordered S ->
    exists M, insertion_loop A cmp (length R) (P ++ S ++ R ++ Q) base i = Ok (P ++ M ++ Q) /\
      Permutation (S ++ R) M /\ ordered M.
  Proof.
    induction R as [|x R IH]; intros S P Q base i Hb Hi Hp Ho.
    - exists S. simpl. rewrite app_nil_r. auto.
    - cbn [length insertion_loop].
      assert (Hget : get (P ++ S ++ (x :: R) ++ Q) (base + i) = Ok x).
      { rewrite app_assoc. rewrite (get_app _ _ _ 0); auto. rewrite app_length. lia. }
      rewrite Hget. cbn [obind].
      destruct (insertion_shift_ok S (Datatypes.S (Z.to_nat i)) P x (R ++ Q) x base (i - 1)) as (S1 & S2 & HS & H2 & H1 & Hr); auto; try lia.
      cbn [app]. rewrite Hr. cbn [obind].
      assert (Ho' : ordered (S1 ++ x :: S2)) by (apply ordered_insert; auto; subst S; auto).
      replace (P ++ S1 ++ x :: S2 ++ R ++ Q) with (P ++ (S1 ++ x :: S2) ++ R ++ Q) by (rewrite <- !app_assoc; auto).
      destruct (IH (S1 ++ x :: S2) P Q base (i + 1)) as (M & E & Hperm & HM); auto.
      + subst S. rewrite !app_length in *. simpl. lia.
      + rewrite app_length. simpl. lia.
      + exists M. split; auto. split; auto. eapply Permutation_trans; [|exact Hperm]. subst S.
        rewrite <- !app_assoc. apply Permutation_app_head.
        simpl. apply Permutation_sym, Permutation_middle.
  Qed.

  Lemma insertion_sort_ok : forall P M Q base count,
    base = Z.of_nat (length P) -> count = Z.of_nat (length M) ->
    exists M', insertion_sort A cmp (P ++ M ++ Q) base count = Ok (P ++ M' ++ Q) /\
      Permutation M M' /\ ordered M'.
  Proof.
    intros P M Q base count Hb Hc. unfold insertion_sort. destruct M as [|x M].
    - exists []. simpl in Hc. subst count. simpl. split; auto. split; auto. constructor.
    - replace (Z.to_nat (count - 1)) with (length M) by (simpl in Hc; lia).
      destruct (insertion_loop_ok M [x] P Q base 1) as (M' & E & Hp & Ho); auto.
      + constructor; constructor.
      + exists M'. auto.
  Qed.

  (** ** Partition *)
  Definition same_outside (l l' : list A) (lo hi : Z) : Prop :=
    length l' = length l /\ Permutation l l' /\ (forall k, k < lo \/ hi < k -> get l' k = get l k).

  Lemma same_outside_refl : forall l lo hi, same_outside l l lo hi.
  Proof. repeat split; auto. Qed.
  Lemma same_outside_trans : forall l1 l2 l3 lo hi, same_outside l1 l2 lo hi -> same_outside l2 l3 lo hi -> same_outside l1 l3 lo hi.
  Proof.
    intros l1 l2 l3 lo hi (A1 & A2 & A3) (B1 & B2 & B3). split; [congruence|]. split; [eapply Permutation_trans; eauto|].
    intros. rewrite B3, A3; auto.
  Qed.

  Lemma swap_outside : forall l lo hi i j, 0 <= lo -> hi < Z.of_nat (length l) -> lo <= i <= hi -> lo <= j <= hi ->
    exists l', swap l i j = Ok l' /\ same_outside l l' lo hi /\ get l' i = get l j /\ get l' j = get l i /\
      (forall k, k <> i -> k <> j -> get l' k = get l k).
  Proof.
    intros l lo hi i j H0 H1 Hi Hj. destruct (swap_ok A l i j) as (l' & E & A1 & A2 & A3 & A4 & A5); try lia.
    exists l'. split; auto. split; [|auto]. split; auto. split; auto. intros k Hk. apply A5; lia.
  Qed.

  Lemma pivot_ok : forall l lo hi, 0 <= lo -> lo + 2 <= hi -> hi < Z.of_nat (length l) ->
    exists l' p a, quick_sort_pivot A cmp l lo hi = Ok (l', p) /\ same_outside l l' lo hi /\
      get l' hi = Ok p /\ get l' lo = Ok a /\ cmp a p <= 0.
  Proof.
    intros l lo hi Hlo Hd Hhi. unfold quick_sort_pivot. set (mid := lo + (hi - lo) / 2).
    assert (Hm : lo < mid < hi).
    { unfold mid. assert (1 <= (hi - lo) / 2) by (apply Z.div_le_lower_bound; lia).
      assert ((hi - lo) / 2 < hi - lo) by (apply Z.div_lt; lia). lia. }
    destruct (get_range A l mid ltac:(lia)) as (m0 & Gm). destruct (get_range A l lo ltac:(lia)) as (a0 & Ga).
    rewrite Gm, Ga. cbn [obind].
    assert (S1 : exists l1 m1 a1, (if cmp m0 a0 <? 0 then swap l lo mid else Ok l) = Ok l1 /\ same_outside l l1 lo hi /\
       get l1 mid = Ok m1 /\ get l1 lo = Ok a1 /\ 0 <= cmp m1 a1).
    { destruct (cmp m0 a0 <? 0) eqn:E.
      - apply Z.ltb_lt in E. destruct (swap_outside l lo hi lo mid) as (l1 & E1 & A1 & A2 & A3 & A4); try lia.
        exists l1, a0, m0. rewrite A2, A3, E1. repeat (split; [auto; fail|]).
        apply cmp_sym'. lia.
      - apply Z.ltb_ge in E. exists l, m0, a0. split; auto. split; [apply same_outside_refl|]. auto. }
    destruct S1 as (l1 & m1 & a1 & -> & O1 & Gm1 & Ga1 & C1). cbn [obind].
    assert (Hlen1 : length l1 = length l) by apply O1.
    destruct (get_range A l1 hi ltac:(lia)) as (h1 & Gh1). rewrite Gh1, Ga1. cbn [obind].
    assert (S2 : exists l2 m2 a2 h2, (if cmp h1 a1 <? 0 then swap l1 lo hi else Ok l1) = Ok l2 /\ same_outside l l2 lo hi /\
       get l2 mid = Ok m2 /\ get l2 lo = Ok a2 /\ get l2 hi = Ok h2 /\ 0 <= cmp m2 a2 /\ 0 <= cmp h2 a2).
    { destruct (cmp h1 a1 <? 0) eqn:E.
      - apply Z.ltb_lt in E. destruct (swap_outside l1 lo hi lo hi) as (l2 & E1 & A1 & A2 & A3 & A4); try lia.
        exists l2, m1, h1, a1. rewrite A2, A3, A4, E1 by lia. split; auto.
        split; [eapply same_outside_trans; eauto|]. split; auto. split; auto. split; auto.
        assert (0 <= cmp a1 h1) by (apply cmp_sym'; lia). split; auto. eapply cmp_trans; eauto.
      - apply Z.ltb_ge in E. exists l1, m1, a1, h1. repeat (split; [auto; fail|]). auto. }
    destruct S2 as (l2 & m2 & a2 & h2 & -> & O2 & Gm2 & Ga2 & Gh2 & C2 & C3). cbn [obind].
    assert (Hlen2 : length l2 = length l) by apply O2.
    rewrite Gm2, Gh2. cbn [obind].
    destruct (cmp m2 h2 <? 0) eqn:E.
    - destruct (swap_outside l2 lo hi mid hi) as (l3 & E1 & A1 & A2 & A3 & A4); try lia.
      rewrite E1. cbn [obind]. rewrite A3, Gm2. cbn [obind].
      exists l3, m2, a2. split; auto. split; [eapply same_outside_trans; eauto|].
      split; [rewrite A3; auto|]. split; [rewrite A4; auto; lia|]. apply cmp_sym. auto.
    - cbn [obind]. rewrite Gh2. cbn [obind]. exists l2, h2, a2. split; auto. split; auto. split; auto.
      split; auto. apply cmp_sym. auto.
  Qed.

  Lemma scan_up_ok : forall fuel l i p k y, -1 <= i -> i < k -> get l k = Ok y -> cmp y p <= 0 ->
    k - i < Z.of_nat fuel + 1 ->
    exists i' x, scan_up A cmp fuel l i p = Ok i' /\ i < i' <= k /\ get l i' = Ok x /\ cmp x p <= 0 /\
      (forall m z, i < m < i' -> get l m = Ok z -> 0 < cmp z p).
  Proof.
    induction fuel; intros l i p k y Hi Hk Gy Cy Hf; [lia|].
    assert (Hr := get_lt _ _ _ _ Gy). cbn [scan_up].
    destruct (get_range A l (i + 1)) as (x & Gx); [lia|]. rewrite Gx. cbn [obind].
    destruct (0 <? cmp x p) eqn:E.
    - apply Z.ltb_lt in E. assert (k <> i + 1) by (intros ->; assert (x = y) by congruence; subst; lia).
      destruct (IHfuel l (i + 1) p k y) as (i' & x' & E' & H1 & H2 & H3 & H4); auto; try lia.
      exists i', x'. rewrite E'. split; auto. split; [lia|]. split; auto. split; auto.
      intros m z Hm Gz. destruct (Z.eq_dec m (i + 1)) as [->|]; [|apply (H4 m z); auto; lia]. congruence.
    - apply Z.ltb_ge in E. exists (i + 1), x. split; auto. split; [lia|]. split; auto. split; auto. intros; lia.
  Qed.

  Lemma scan_down_ok : forall fuel l j p k y, j <= Z.of_nat (length l) -> k < j -> get l k = Ok y -> 0 <= cmp y p ->
    j - k < Z.of_nat fuel + 1 ->
    exists j' x, scan_down A cmp fuel l j p = Ok j' /\ k <= j' < j /\ get l j' = Ok x /\ 0 <= cmp x p /\
      (forall m z, j' < m < j -> get l m = Ok z -> cmp z p < 0).
  Proof.
    induction fuel; intros l j p k y Hj Hk Gy Cy Hf; [lia|].
    assert (Hr := get_lt _ _ _ _ Gy). cbn [scan_down].
    destruct (get_range A l (j - 1)) as (x & Gx); [lia|]. rewrite Gx. cbn [obind].
    destruct (cmp x p <? 0) eqn:E.
    - apply Z.ltb_lt in E. assert (k <> j - 1) by (intros ->; assert (x = y) by congruence; subst; lia).
      destruct (IHfuel l (j - 1) p k y) as (j' & x' & E' & H1 & H2 & H3 & H4); auto; try lia.
      exists j', x'. rewrite E'. split; auto. split; [lia|]. split; auto. split; auto.
      intros m z Hm Gz. destruct (Z.eq_dec m (j - 1)) as [->|]; [|apply (H4 m z); auto; lia]. congruence.
    - apply Z.ltb_ge in E. exists (j - 1), x. split; auto. split; [lia|]. split; auto. split; auto. intros; lia.
  Qed.

  (** The main loop after its first swap: [i] holds an element not after the
      pivot and [j] one not before it. *)
  Lemma partition_loop_ok : forall fuel l lo hi i j p xi xj,
    0 <= lo -> hi < Z.of_nat (length l) -> lo <= i -> i < j -> j <= hi ->
    get l i = Ok xi -> 0 <= cmp xi p -> get l j = Ok xj -> cmp xj p <= 0 ->
    (forall m z, lo <= m <= i -> get l m = Ok z -> 0 <= cmp z p) ->
    (forall m z, j <= m <= hi -> get l m = Ok z -> cmp z p <= 0) ->
    j - i < Z.of_nat fuel + 1 ->
    exists l' q, partition_loop A cmp fuel l i j p = Ok (l', q) /\ same_outside l l' lo hi /\
      lo <= q < hi /\
      (forall m z, lo <= m <= q -> get l' m = Ok z -> 0 <= cmp z p) /\
      (forall m z, q < m <= hi -> get l' m = Ok z -> cmp z p <= 0).
  Proof.
    induction fuel; intros l lo hi i j p xi xj Hlo Hhi Hli Hij Hjh Gi Ci Gj Cj Hlow Hhigh Hf; [lia|].
    cbn [partition_loop].
    destruct (scan_up_ok (S (length l)) l i p j xj) as (i' & x & E1 & I1 & I2 & I3 & I4); auto; try lia.
    destruct (scan_down_ok (S (length l)) l j p i xi) as (j' & y & E2 & J1 & J2 & J3 & J4); auto; try lia.
    rewrite E1. cbn [obind]. rewrite E2. cbn [obind].
    assert (Hlow' : forall m z, lo <= m < i' -> get l m = Ok z -> 0 <= cmp z p).
    { intros m z Hm Gz. destruct (Z.le_gt_cases m i) as [H|H]; [apply (Hlow m z); auto; lia|].
      specialize (I4 m z ltac:(lia) Gz). lia. }
    assert (Hhigh' : forall m z, j' < m <= hi -> get l m = Ok z -> cmp z p <= 0).
    { intros m z Hm Gz. destruct (Z.le_gt_cases j m) as [H|H]; [apply (Hhigh m z); auto; lia|].
      specialize (J4 m z ltac:(lia) Gz). lia. }
    destruct (j' <=? i') eqn:E.
    - apply Z.leb_le in E. exists l, j'. split; auto. split; [apply same_outside_refl|]. split; [lia|].
      split.
      + intros m z Hm Gz. destruct (Z.eq_dec m i') as [->|]; [|apply (Hlow' m z); auto; lia].
        assert (i' = j') by lia. subst. assert (z = y) by congruence. subst. auto.
      + intros m z Hm Gz. apply (Hhigh' m z); auto.
    - apply Z.leb_gt in E. destruct (swap_outside l lo hi i' j') as (l1 & ES & O1 & A1 & A2 & A3); try lia.
      rewrite ES. cbn [obind].
      assert (Hlen : length l1 = length l) by apply O1.
      destruct (IHfuel l1 lo hi i' j' p y x) as (l2 & q & EQ & O2 & Hq & Q1 & Q2); auto; try lia; try congruence.
      + intros m z Hm Gz. destruct (Z.eq_dec m i') as [->|]; [rewrite A1, J2 in Gz; congruence|].
        rewrite A3 in Gz by lia. apply (Hlow' m z); auto; lia.
      + intros m z Hm Gz. destruct (Z.eq_dec m j') as [->|]; [rewrite A2, I2 in Gz; congruence|].
        rewrite A3 in Gz by lia. apply (Hhigh' m z); auto; lia.
      + exists l2, q. split; auto. split; [eapply same_outside_trans; eauto|]. auto.
  Qed.

  Lemma partition_ok : forall l lo hi, 0 <= lo -> lo + 2 <= hi -> hi < Z.of_nat (length l) ->
    exists l' q p, quick_sort_partition A cmp l lo hi = Ok (l', q) /\ same_outside l l' lo hi /\
      lo <= q < hi /\
      (forall m z, lo <= m <= q -> get l' m = Ok z -> 0 <= cmp z p) /\
      (forall m z, q < m <= hi -> get l' m = Ok z -> cmp z p <= 0).
  Proof.
    intros l lo hi Hlo Hd Hhi. unfold quick_sort_partition.
    destruct (pivot_ok l lo hi) as (l1 & p & a & E & O & Gh & Gl & C); auto.
    rewrite E. cbn [obind fst snd]. assert (Hlen : length l1 = length l) by apply O.
    cbn [partition_loop].
    destruct (scan_up_ok (S (length l1)) l1 (lo - 1) p lo a) as (i' & x & E1 & I1 & I2 & I3 & I4); auto; try lia.
    assert (i' = lo) by lia. subst i'.
    destruct (scan_down_ok (S (length l1)) l1 (hi + 1) p hi p) as (j' & y & E2 & J1 & J2 & J3 & J4); auto; try lia.
    { rewrite cmp_refl. lia. }
    assert (j' = hi) by lia. subst j'.
    rewrite E1. cbn [obind]. rewrite E2. cbn [obind].
    assert (Ele : hi <=? lo = false) by (apply Z.leb_gt; lia). rewrite Ele.
    destruct (swap_outside l1 lo hi lo hi) as (l2 & ES & O1 & A1 & A2 & A3); try lia.
    rewrite ES. cbn [obind]. assert (Hlen2 : length l2 = length l1) by apply O1.
    assert (Hpp : 0 <= cmp p p <= 0) by (rewrite cmp_refl; lia).
    destruct (partition_loop_ok (length l) l2 lo hi lo hi p p a) as (l3 & q & EQ & O2 & Hq & Q1 & Q2); auto; try lia; try congruence.
    - intros m z Hm Gz. assert (m = lo) by lia. subst m. rewrite A1, Gh in Gz. inversion Gz; subst. lia.
    - intros m z Hm Gz. assert (m = hi) by lia. subst m. rewrite A2, Gl in Gz. inversion Gz; subst. lia.
    - exists l3, q, p. split; auto. split; [|auto].
      eapply same_outside_trans; [exact O|]. eapply same_outside_trans; eauto.
  Qed.

  (** The slice view of [same_outside]. *)
  Lemma same_outside_slice : forall P M Q l' lo hi,
    lo = Z.of_nat (length P) -> hi = lo + Z.of_nat (length M) - 1 ->
    same_outside (P ++ M ++ Q) l' lo hi ->
    exists M', l' = P ++ M' ++ Q /\ Permutation M M'.
  Proof.
    intros P M Q l' lo hi Hlo Hhi (Hlen & Hperm & Hout).
    assert (Hout' : forall n, (n < length P \/ length P + length M <= n)%nat -> nth_error l' n = nth_error (P ++ M ++ Q) n).
    { intros n Hn. specialize (Hout (Z.of_nat n) ltac:(lia)). unfold Sort_Model.get in Hout.
      assert (E : 0 <=? Z.of_nat n = true) by (apply Z.leb_le; lia). rewrite E, Nat2Z.id in Hout.
      destruct (nth_error l' n), (nth_error (P ++ M ++ Q) n); congruence. }
    assert (Hfst : firstn (length P) l' = P).
    { rewrite <- (firstn_all P) at 2.
      assert (G : forall n (a b : list A), (forall k, (k < n)%nat -> nth_error a k = nth_error b k) -> firstn n a = firstn n b).
      { clear. induction n; intros; simpl; auto. assert (H0 := H 0%nat ltac:(lia)). destruct a, b; simpl in H0; try discriminate; auto.
        inversion H0; subst. f_equal. apply IHn. intros k Hk. apply (H (S k)). lia. }
      apply G. intros k Hk. rewrite Hout' by lia. rewrite nth_error_app1; auto. }
    assert (Hskip : skipn (length P + length M) l' = Q).
    { assert (G : forall (a b : list A), (forall k, nth_error a k = nth_error b k) -> a = b).
      { clear. induction a; destruct b; intros; auto; try (specialize (H 0%nat); discriminate).
        assert (H0 := H 0%nat). inversion H0; subst. f_equal. apply IHa. intros k. apply (H (S k)). }
      apply G. intros k.
      assert (N : forall n (l : list A) k, nth_error (skipn n l) k = nth_error l (n + k)).
      { clear. induction n; intros; simpl; auto. destruct l; auto. destruct k; auto. }
      rewrite N, Hout' by lia. rewrite <- Nat.add_assoc, !nth_error_app_r. auto. }
    exists (firstn (length M) (skipn (length P) l')).
    assert (El : l' = P ++ firstn (length M) (skipn (length P) l') ++ Q).
    { rewrite <- (firstn_skipn (length P) l') at 1. rewrite Hfst. f_equal.
      rewrite <- (firstn_skipn (length M) (skipn (length P) l')) at 1. f_equal.
      rewrite <- Hskip. 
      assert (SK : forall a b (l : list A), skipn b (skipn a l) = skipn (a + b) l).
      { clear. induction a; intros; simpl; auto. destruct l; auto. destruct b; auto. }
      apply SK. }
    split; auto. rewrite El in Hperm. apply Permutation_app_inv_l in Hperm.
    apply Permutation_app_inv_r in Hperm. auto.
  Qed.

  Lemma quick_sort_ok : forall fuel P M Q lo hi,
    lo = Z.of_nat (length P) -> hi = lo + Z.of_nat (length M) - 1 -> (length M < fuel)%nat ->
    exists M', quick_sort A cmp fuel (P ++ M ++ Q) lo hi = Ok (P ++ M' ++ Q) /\ Permutation M M' /\ ordered M'.
  Proof.
    induction fuel; intros P M Q lo hi Hlo Hhi Hf; [lia|]. cbn [quick_sort].
    destruct (hi - lo <? 10) eqn:E.
    - apply insertion_sort_ok; auto. lia.
    - apply Z.ltb_ge in E. assert (El : lo <? hi = true) by (apply Z.ltb_lt; lia). rewrite El.
      destruct (partition_ok (P ++ M ++ Q) lo hi) as (l' & q & p & EP & O & Hq & Q1 & Q2); try lia.
      { rewrite !app_length. lia. }
      rewrite EP. cbn [obind fst snd].
      destruct (same_outside_slice P M Q l' lo hi Hlo Hhi O) as (M1 & -> & HM1).
      assert (Hl1 : length M1 = length M) by (symmetry; apply Permutation_length; auto).
      remember (Z.to_nat (q - lo + 1)) as n eqn:En.
      assert (Hn : (n < length M1)%nat /\ (0 < n)%nat) by lia.
      assert (HA : length (firstn n M1) = n) by (rewrite firstn_length; lia).
      assert (HB : length (skipn n M1) = (length M1 - n)%nat) by (rewrite skipn_length; lia).
      assert (Hlow : forall x, In x (firstn n M1) -> 0 <= cmp x p).
      { intros x Hx. apply In_nth_error in Hx. destruct Hx as (k & Hk).
        assert (k < n)%nat by (rewrite <- HA; apply nth_error_Some; congruence).
        apply (Q1 (lo + Z.of_nat k) x); [lia|].
        rewrite (get_app _ _ _ k) by lia. rewrite <- (firstn_skipn n M1), <- app_assoc, nth_error_app1 by lia. rewrite Hk. auto. }
      assert (Hhigh : forall x, In x (skipn n M1) -> cmp x p <= 0).
      { intros x Hx. apply In_nth_error in Hx. destruct Hx as (k & Hk).
        assert (k < length M1 - n)%nat by (rewrite <- HB; apply nth_error_Some; congruence).
        apply (Q2 (lo + Z.of_nat (n + k)) x); [lia|].
        rewrite (get_app _ _ _ (n + k)) by lia. rewrite <- (firstn_skipn n M1), <- app_assoc.
        replace (n + k)%nat with (length (firstn n M1) + k)%nat by lia. rewrite nth_error_app_r. rewrite nth_error_app1 by lia. rewrite Hk. auto. }
      rewrite <- (firstn_skipn n M1) in HM1 |- *.
      remember (firstn n M1) as Ma eqn:EMa. remember (skipn n M1) as Mb eqn:EMb.
      destruct (IHfuel P Ma (Mb ++ Q) lo q) as (Ma' & Ea & Pa & Oa); auto; try lia.
      rewrite <- (app_assoc Ma). rewrite Ea. cbn [obind].
      assert (Hla : length Ma' = n) by (rewrite <- HA; symmetry; apply Permutation_length; auto).
      destruct (IHfuel (P ++ Ma') Mb Q (q + 1) hi) as (Mb' & Eb & Pb & Ob); auto; try lia.
      { rewrite app_length. lia. }
      rewrite (app_assoc P). rewrite Eb.
      exists (Ma' ++ Mb'). split; [rewrite <- !app_assoc; auto|].
      split; [eapply Permutation_trans; [exact HM1|apply Permutation_app; auto]|].
      apply ordered_app; auto. intros a b Ha Hb.
      apply (cmp_trans a p b).
      + apply Hlow. eapply Permutation_in; [apply Permutation_sym; exact Pa|auto].
      + apply cmp_sym'. apply Hhigh. eapply Permutation_in; [apply Permutation_sym; exact Pb|auto].
  Qed.

  Lemma sort_objects_ok : forall l, exists l', sort_objects A cmp l = Ok l' /\ Permutation l l' /\ ordered l'.
  Proof.
    intros l. unfold sort_objects.
    destruct (quick_sort_ok (S (length l)) [] l [] 0 (Z.of_nat (length l) - 1)) as (M' & E & Hp & Ho); auto; try lia.
    cbn [app] in E. rewrite !app_nil_r in E. eauto.
  Qed.
End Sort.

Section Reverse.
  Variable A : Type.
  Notation get := (get A).

  Lemma get_ext : forall l1 l2 : list A, (forall k, 0 <= k -> get l1 k = get l2 k) -> l1 = l2.
  Proof.
    intros l1 l2 H.
    assert (G : forall (a b : list A), (forall k, nth_error a k = nth_error b k) -> a = b).
    { clear. induction a; destruct b; intros; auto; try (specialize (H 0%nat); discriminate).
      assert (H0 := H 0%nat). inversion H0; subst. f_equal. apply IHa. intros k. apply (H (S k)). }
    apply G. intros k. specialize (H (Z.of_nat k) ltac:(lia)). unfold Sort_Model.get in H.
    assert (E : 0 <=? Z.of_nat k = true) by (apply Z.leb_le; lia). rewrite E, Nat2Z.id in H.
    destruct (nth_error l1 k), (nth_error l2 k); congruence.
  Qed.

  Lemma get_rev : forall l k, 0 <= k < Z.of_nat (length l) -> get (rev l) k = get l (Z.of_nat (length l) - 1 - k).
  Proof.
    intros l k Hk. unfold Sort_Model.get.
    assert (E : 0 <=? k = true) by (apply Z.leb_le; lia).
    assert (E2 : 0 <=? Z.of_nat (length l) - 1 - k = true) by (apply Z.leb_le; lia). rewrite E, E2.
    replace (Z.to_nat (Z.of_nat (length l) - 1 - k)) with (length l - S (Z.to_nat k))%nat by lia.
    assert (G : forall (l : list A) n, (n < length l)%nat -> nth_error (rev l) n = nth_error l (length l - S n)).
    { clear. intros l n Hn. destruct l as [|d l]; [simpl in Hn; lia|]. set (L := d :: l) in *.
      rewrite (nth_error_nth' (rev L) d) by (rewrite rev_length; lia).
      rewrite (nth_error_nth' L d) by lia. f_equal. apply rev_nth. lia. }
    rewrite G by lia. auto.
  Qed.

  Lemma get_beyond : forall l k, Z.of_nat (length l) <= k -> get l k = UB.
  Proof.
    intros. unfold Sort_Model.get. assert (E : 0 <=? k = true) by (apply Z.leb_le; lia). rewrite E.
    assert (N : nth_error l (Z.to_nat k) = None) by (apply nth_error_None; lia). rewrite N. auto.
  Qed.

  Lemma reverse_loop_ok : forall n l0 l i,
    length l = length l0 -> 0 <= i -> i + Z.of_nat n = Z.of_nat (Nat.div2 (length l0)) ->
    (forall k, i <= k < Z.of_nat (length l) - i -> get l k = get l0 k) ->
    (forall k, 0 <= k < i -> get l k = get l0 (Z.of_nat (length l) - 1 - k)) ->
    (forall k, Z.of_nat (length l) - i <= k < Z.of_nat (length l) -> get l k = get l0 (Z.of_nat (length l) - 1 - k)) ->
    reverse_loop A n l i = Ok (rev l0).
  Proof.
    assert (Hdiv : forall m, (2 * Nat.div2 m <= m /\ m <= 2 * Nat.div2 m + 1)%nat).
    { intros. assert (H := Nat.div2_odd m). destruct (Nat.odd m); simpl in H; lia. }
    induction n; intros l0 l i Hlen Hi Hn Hmid Hlo Hhi; cbn [reverse_loop].
    - f_equal. apply get_ext. intros k Hk. specialize (Hdiv (length l0)).
      destruct (Z.lt_ge_cases k (Z.of_nat (length l))) as [H|H].
      + rewrite get_rev by lia. rewrite <- Hlen.
        destruct (Z.lt_ge_cases k i); [apply Hlo; lia|].
        destruct (Z.lt_ge_cases k (Z.of_nat (length l) - i)); [|apply Hhi; lia].
        rewrite Hmid by lia. f_equal. lia.
      + rewrite !get_beyond; auto. rewrite rev_length. lia.
    - specialize (Hdiv (length l0)).
      destruct (swap_ok A l i (Z.of_nat (length l) - 1 - i)) as (l' & E & A1 & _ & A3 & A4 & A5); try lia.
      rewrite E. cbn [obind]. apply IHn; auto; try lia.
      + rewrite A1. intros k Hk. rewrite A5 by lia. apply Hmid. lia.
      + rewrite A1. intros k Hk. destruct (Z.eq_dec k i) as [->|].
        * rewrite A3. apply Hmid. lia.
        * rewrite A5 by lia. apply Hlo. lia.
      + rewrite A1. intros k Hk. destruct (Z.eq_dec k (Z.of_nat (length l) - 1 - i)) as [->|].
        * rewrite A4. rewrite Hmid by lia. f_equal. lia.
        * rewrite A5 by lia. apply Hhi. lia.
  Qed.

  Lemma reverse_ok : forall l, reverse A l = Ok (rev l).
  Proof. intros. unfold reverse. apply reverse_loop_ok; auto; try lia; intros; try lia. Qed.

  (** ** Shuffle *)
  Lemma shuffle_loop_ok : forall n l i len1 rand k,
    len1 = Z.of_nat (length l) - 1 -> 0 <= i -> i + Z.of_nat n = len1 -> (0 < n)%nat \/ n = 0%nat ->
    exists l', shuffle_loop A n l i len1 rand k = Ok l' /\ Permutation l l' /\ length l' = length l /\
      get l' len1 = get l len1.
  Proof.
    induction n; intros l i len1 rand k Hl Hi Hn _; cbn [shuffle_loop].
    - exists l. auto.
    - assert (Hj : 0 <= Z.of_N (rand k) mod len1 < len1) by (apply Z.mod_pos_bound; lia).
      destruct (swap_ok A l i (Z.of_N (rand k) mod len1)) as (l' & E & A1 & A2 & A3 & A4 & A5); try lia.
      cbv zeta. rewrite E. cbn [obind].
      destruct (IHn l' (i + 1) len1 rand (S k)) as (l2 & E2 & B1 & B2 & B3); try lia.
      exists l2. split; auto. split; [eapply Permutation_trans; eauto|]. split; [lia|].
      rewrite B3. apply A5; lia.
  Qed.

  Lemma shuffle_once_ok : forall l rand k,
    exists l', shuffle_once A l rand k = Ok l' /\ Permutation l l' /\ length l' = length l /\
      get l' (Z.of_nat (length l) - 1) = get l (Z.of_nat (length l) - 1).
  Proof.
    intros. unfold shuffle_once. destruct l as [|x l].
    - exists []. simpl. auto.
    - apply shuffle_loop_ok; auto; simpl length; try lia.
  Qed.

  Lemma shuffle_ok : forall l rand,
    exists l', shuffle A l rand = Ok l' /\ Permutation l l' /\
      get l' (Z.of_nat (length l) - 1) = get l (Z.of_nat (length l) - 1).
  Proof.
    intros. unfold shuffle. destruct (shuffle_once_ok l rand 0) as (l1 & E1 & P1 & L1 & G1).
    rewrite E1. cbn [obind].
    destruct (shuffle_once_ok l1 rand (length l - 1)) as (l2 & E2 & P2 & L2 & G2).
    exists l2. split; auto. split; [eapply Permutation_trans; eauto|]. rewrite L1 in G2. congruence.
  Qed.
End Reverse.

(** ** What a shuffle can reach *)
Section ShuffleReach.
  Variable A : Type.

  Lemma swap_self : forall l i, 0 <= i < Z.of_nat (length l) -> swap A l i i = Ok l.
  Proof.
    intros l i H. unfold swap. destruct (get_range A l i H) as (x & Hx). rewrite Hx. cbn [obind].
    rewrite set_range by auto. cbn [obind]. rewrite set_range by (rewrite upd_length; auto).
    assert (E : nth_error l (Z.to_nat i) = Some x) by (apply get_ok_iff in Hx; tauto).
    rewrite !(upd_same A l) by auto. auto.
  Qed.

  Lemma shuffle_identity : forall n l i len1 rand k, len1 = Z.of_nat (length l) - 1 -> 0 <= i -> i + Z.of_nat n = len1 ->
    (forall m, 0 <= m < Z.of_nat n -> Z.of_N (rand (k + Z.to_nat m)%nat) mod len1 = i + m) ->
    shuffle_loop A n l i len1 rand k = Ok l.
  Proof.
    induction n; intros l i len1 rand k Hl Hi Hn Hr; cbn [shuffle_loop]; auto.
    assert (H0 := Hr 0 ltac:(lia)). change (Z.to_nat 0) with 0%nat in H0. rewrite Nat.add_0_r, Z.add_0_r in H0. rewrite H0.
    rewrite swap_self by lia. cbn [obind]. apply IHn; auto; try lia.
    intros m Hm. specialize (Hr (m + 1) ltac:(lia)).
    replace (i + 1 + m) with (i + (m + 1)) by lia. rewrite <- Hr. do 3 f_equal. lia.
  Qed.

  Lemma shuffle_loop_one : forall n l i len1 rand k p q, len1 = Z.of_nat (length l) - 1 -> 0 <= i -> i + Z.of_nat n = len1 ->
    i <= p < len1 -> 0 <= q < len1 ->
    (forall m, 0 <= m < Z.of_nat n -> Z.of_N (rand (k + Z.to_nat m)%nat) mod len1 = if i + m =? p then q else i + m) ->
    exists l', shuffle_loop A n l i len1 rand k = Ok l' /\ length l' = length l /\ get A l' p = get A l q.
  Proof.
    induction n; intros l i len1 rand k p q Hl Hi Hn Hp Hq Hr; cbn [shuffle_loop]; [lia|].
    assert (H0 := Hr 0 ltac:(lia)). change (Z.to_nat 0) with 0%nat in H0. rewrite Nat.add_0_r, Z.add_0_r in H0. rewrite H0.
    destruct (Z.eq_dec i p) as [->|Hne].
    - rewrite Z.eqb_refl. destruct (swap_ok A l p q) as (l' & E & A1 & _ & A3 & A4 & A5); try lia.
      rewrite E. cbn [obind]. exists l'. rewrite A1. split; [|auto].
      apply shuffle_identity; auto; try lia. intros m Hm. specialize (Hr (m + 1) ltac:(lia)).
      assert (Ene : p + (m + 1) =? p = false) by (apply Z.eqb_neq; lia). rewrite Ene in Hr.
      replace (p + 1 + m) with (p + (m + 1)) by lia. rewrite <- Hr. do 3 f_equal. lia.
    - assert (Ene : i =? p = false) by (apply Z.eqb_neq; lia). rewrite Ene. rewrite swap_self by lia. cbn [obind].
      apply IHn; auto; try lia. intros m Hm. specialize (Hr (m + 1) ltac:(lia)).
      replace (i + 1 + m) with (i + (m + 1)) by lia. rewrite <- Hr. do 3 f_equal. lia.
  Qed.

  Lemma shuffle_reaches : forall l p q, 0 <= p < Z.of_nat (length l) - 1 -> 0 <= q < Z.of_nat (length l) - 1 ->
    exists rand l', shuffle A l rand = Ok l' /\ get A l' p = get A l q.
  Proof.
    intros l p q Hp Hq. set (n := Z.of_nat (length l) - 1) in *.
    set (rand := fun k => if Z.of_nat k =? p then Z.to_N q else Z.to_N (Z.of_nat k mod n)).
    exists rand. unfold shuffle, shuffle_once. fold n.
    destruct (shuffle_loop_one (Z.to_nat n) l 0 n rand 0 p q) as (l1 & E & Hl & Hg); auto; try lia.
    { intros m Hm. unfold rand. cbn [Nat.add]. rewrite !Z2Nat.id by lia. cbn [Z.add].
      assert (Hmod := Z.mod_pos_bound m n ltac:(lia)).
      destruct (m =? p) eqn:Em; rewrite Z2N.id by lia; [apply Z.mod_small; lia|].
      rewrite Z.mod_mod by lia. apply Z.mod_small. lia. }
    rewrite E. cbn [obind]. rewrite Hl. fold n.
    rewrite shuffle_identity; auto; try lia.
    - exists l1. auto.
    - intros m Hm. unfold rand. assert (Ene : Z.of_nat (length l - 1 + Z.to_nat m) =? p = false) by (apply Z.eqb_neq; lia).
      rewrite Ene. replace (Z.of_nat (length l - 1 + Z.to_nat m)) with (m + 1 * n) by lia.
      rewrite Z_mod_plus_full. assert (Hmod := Z.mod_pos_bound m n ltac:(lia)).
      rewrite Z2N.id by lia. rewrite Z.mod_mod by lia. apply Z.mod_small. lia.
  Qed.
End ShuffleReach.

Lemma shuffle_last_fixed : forall A (l : list A) (x : A) rand,
  exists l', shuffle A (l ++ [x]) rand = Ok (l' ++ [x]) /\ Permutation l l'.
Proof.
  intros A l x rand. destruct (shuffle_ok A (l ++ [x]) rand) as (r & E & P & G).
  assert (Hlen := Permutation_length P). rewrite app_length in Hlen. cbn in Hlen.
  destruct r as [|z r] using rev_ind; [simpl in Hlen; lia|]. clear IHr. rewrite app_length in Hlen. cbn in Hlen.
  rewrite app_length in G. cbn [length] in G.
  assert (Hi : forall (k : list A) y, length k = length l -> get A (k ++ [y]) (Z.of_nat (length l + 1) - 1) = Ok y).
  { intros k y Hk. apply get_ok_iff. split; [lia|]. replace (Z.to_nat (Z.of_nat (length l + 1) - 1)) with (length k) by lia.
    rewrite nth_error_app2, Nat.sub_diag; auto. }
  rewrite !Hi in G by lia. inversion G; subst. exists r. split; auto. apply Permutation_app_inv_r in P. auto.
Qed.

Lemma shuffle_partial : forall (A : Type) (l : list A),
    (forall rand, exists l', shuffle A l rand = Ok l' /\ Permutation l l') /\
    (forall p q, 0 <= p < Z.of_nat (length l) - 1 -> 0 <= q < Z.of_nat (length l) - 1 ->
       exists rand l', shuffle A l rand = Ok l' /\
         nth_error l' (Z.to_nat p) = nth_error l (Z.to_nat q)).
Proof.
  intros A l. split.
  - intros rand. destruct (shuffle_ok A l rand) as (l' & E & P & _). eauto.
  - intros p q Hp Hq. destruct (shuffle_reaches A l p q Hp Hq) as (rand & l' & E & G). exists rand, l'. split; auto.
    destruct (get_range A l q ltac:(lia)) as (y & Gy). rewrite Gy in G.
    apply get_ok_iff in G, Gy. destruct G as [_ ->], Gy as [_ ->]. auto.
Qed.

Lemma shuffle_refuted : exists (l : list N), NoDup l /\ length l = 3%nat /\
    forall rand l', shuffle N l rand = Ok l' -> nth_error l' 2 = nth_error l 2.
Proof.
  exists [1; 2; 3]%N. split; [|split; auto].
  - repeat constructor; cbn; intuition discriminate.
  - intros rand l' H. destruct (shuffle_last_fixed N [1; 2]%N 3%N rand) as (r & E & P). cbn [app] in E. rewrite H in E.
    inversion E; subst. assert (L := Permutation_length P). cbn in L.
    destruct r as [|? [|? [|]]]; try discriminate. auto.
Qed.

Lemma reverse_spec : forall (A : Type) (l : list A),
    (exists l', reverse A l = Ok l' /\ length l' = length l /\
       (forall i, (i < length l)%nat -> nth_error l' i = nth_error l (length l - 1 - i)) /\
       reverse A l' = Ok l).
Proof.
  intros A l. exists (rev l). split; [apply reverse_ok|]. split; [apply rev_length|]. split.
  - intros n Hn. destruct l as [|d l]; [simpl in Hn; lia|]. set (L := d :: l) in *.
    rewrite (nth_error_nth' (rev L) d) by (rewrite rev_length; lia).
    rewrite (nth_error_nth' L d) by lia. f_equal. rewrite rev_nth by lia. f_equal. lia.
  - rewrite reverse_ok, rev_involutive. auto.
Qed.

Lemma sort_case :
  let cmp := fun a b : Z => (if a / 2 <? b / 2 then 1 else if b / 2 <? a / 2 then -1 else 0) in
  consistent Z cmp /\
  exists l', sort_objects Z cmp [9; 3; 14; 1; 12; 7; 0; 5; 11; 2; 8; 13; 6; 10; 4; 3; 2; 9] = Ok l' /\
    map (fun z => z / 2) l' = [0; 0; 1; 1; 1; 1; 2; 2; 3; 3; 4; 4; 4; 5; 5; 6; 6; 7].
Proof.
  cbv zeta. split.
  - split.
    + intros a b. destruct (a / 2 <? b / 2) eqn:E1, (b / 2 <? a / 2) eqn:E2; auto. apply Z.ltb_lt in E1, E2. lia.
    + intros a b c. destruct (a / 2 <? b / 2) eqn:E1, (b / 2 <? a / 2) eqn:E2, (b / 2 <? c / 2) eqn:E3, (c / 2 <? b / 2) eqn:E4,
        (a / 2 <? c / 2) eqn:E5, (c / 2 <? a / 2) eqn:E6; try lia.
  - eexists. split; vm_compute; reflexivity.
Qed.
