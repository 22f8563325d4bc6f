(** Proofs about the generic list functions. *)
Require Import Coq.ZArith.ZArith Coq.Lists.List Coq.Bool.Bool Coq.Arith.Arith Coq.micromega.Lia.
Require Import Verif.Base Verif.Array_Model Verif.Array_Spec Verif.Array_Proofs.
Require Import Verif.List_Model Verif.List_Spec.
Import ListNotations.

Section Lists.
  Variable A : Type.
  Variable null : A.
  Variable oeq : A -> A -> bool.
  Variable ocmp : A -> A -> Z.

  (** What an implementation of the List interface must do: [rep s l] says
      that the list object [s] currently holds the sequence [l]. *)
  Record implements {L} (I : list_interface A L) (rep : L -> list A -> Prop) : Prop := {
    imp_count : forall s l, rep s l -> getCount I s = length l;
    imp_get : forall s l i, rep s l ->
      exists s', getObjectAtIndex I s i = Ok (s', if (0 <=? i)%Z then nth_error l (Z.to_nat i) else None) /\ rep s' l;
    imp_replace : forall s l loc len new, rep s l -> (loc + len <= INT64_MAX)%Z ->
      exists s', replaceRangeWithCArray I s loc len new = Ok s' /\ rep s' (seq_replace A l loc len new)
  }.

  Lemma array_implements : implements (array_interface A null) (ainv A).
  Proof.
    constructor; intros s l; cbn [getCount getObjectAtIndex replaceRangeWithCArray array_interface].
    - apply ainv_len.
    - intros i H. unfold array_get, check_index. rewrite (ainv_len _ _ _ H).
      destruct (0 <=? i)%Z eqn:E; [|cbn; eauto]. apply Z.leb_le in E.
      destruct (i <? Z.of_nat (length l))%Z eqn:E2; cbn [andb].
      + apply Z.ltb_lt in E2. destruct (nth_error l (Z.to_nat i)) as [x|] eqn:N.
        * rewrite (read_ok A _ _ _ x H N). cbn. eauto.
        * apply nth_error_None in N. lia.
      + apply Z.ltb_ge in E2. replace (nth_error l (Z.to_nat i)) with (@None A); [cbn; eauto|].
        symmetry. apply nth_error_None. lia.
    - intros. apply array_replace_range_ok; auto.
  Qed.

  Section One.
    Variable L : Type.
    Variable I : list_interface A L.
    Variable rep : L -> list A -> Prop.
    Hypothesis HI : implements I rep.

    Lemma get_object_ok : forall s l i x, rep s l -> nth_error l i = Some x ->
      exists s', get_object A null L I s (Z.of_nat i) = Ok (s', x) /\ rep s' l.
    Proof.
      intros s l i x Hr Hx. unfold get_object. destruct (imp_get _ _ HI s l (Z.of_nat i) Hr) as (s' & E & Hr').
      assert (E0 : (0 <=? Z.of_nat i)%Z = true) by (apply Z.leb_le; lia).
      rewrite E, E0, Nat2Z.id, Hx. cbn. eauto.
    Qed.

    Lemma nth_split_here : forall (l1 : list A) x l2, nth_error (l1 ++ x :: l2) (length l1) = Some x.
    Proof. intros. rewrite nth_error_app2, Nat.sub_diag; auto. Qed.

    Lemma count_loop_ok : forall l2 l1 s x n, rep s (l1 ++ l2) ->
      exists s', count_loop A null oeq L I (length l2) s (Z.of_nat (length l1)) x n = Ok (s', n + occurrences A oeq l2 x) /\ rep s' (l1 ++ l2).
    Proof.
      induction l2 as [|y l2 IH]; intros l1 s x n Hr; cbn [count_loop length].
      - exists s. unfold occurrences. cbn. rewrite Nat.add_0_r. auto.
      - destruct (get_object_ok s _ (length l1) y Hr (nth_split_here _ _ _)) as (s' & E & Hr').
        rewrite E. cbn [obind fst snd].
        replace (l1 ++ y :: l2) with ((l1 ++ [y]) ++ l2) in * by (rewrite <- app_assoc; auto).
        destruct (IH (l1 ++ [y]) s' x (if oeq x y then S n else n) Hr') as (s2 & E2 & Hr2).
        replace (Z.of_nat (length (l1 ++ [y]))) with (Z.of_nat (length l1) + 1)%Z in E2 by (rewrite app_length; simpl; lia).
        exists s2. rewrite E2. split; auto. unfold occurrences. cbn [filter]. destruct (oeq x y); simpl; do 2 f_equal; lia.
    Qed.

    Lemma count_ok : forall s l x, rep s l ->
      exists s', list_count_of_object A null oeq L I s x = Ok (s', occurrences A oeq l x) /\ rep s' l.
    Proof.
      intros. unfold list_count_of_object. rewrite (imp_count _ _ HI _ _ H).
      apply (count_loop_ok l [] s x 0 H).
    Qed.

    Lemma first_loop_ok : forall l2 l1 s x, rep s (l1 ++ l2) -> (forall y, In y l1 -> oeq x y = false) ->
      exists s' r, first_loop A null oeq L I (length l2) s (Z.of_nat (length l1)) x = Ok (s', r) /\ rep s' (l1 ++ l2) /\
        match r with Some i => is_first_index A oeq (l1 ++ l2) x i | None => ~ occurs A oeq (l1 ++ l2) x end.
    Proof.
      induction l2 as [|y l2 IH]; intros l1 s x Hr Hn; cbn [first_loop length].
      - exists s, None. split; auto. split; auto. intros (y & Hy & Ey). rewrite app_nil_r in Hy.
        rewrite Hn in Ey; auto. discriminate.
      - destruct (get_object_ok s _ (length l1) y Hr (nth_split_here _ _ _)) as (s' & E & Hr').
        rewrite E. cbn [obind fst snd]. destruct (oeq x y) eqn:Eq.
        + exists s', (Some (Z.of_nat (length l1))). split; auto. split; auto. split.
          * exists y. rewrite Nat2Z.id, nth_split_here. split; [lia|auto].
          * intros j z Hj Hz. rewrite nth_error_app1 in Hz by lia. apply nth_error_In in Hz. auto.
        + replace (l1 ++ y :: l2) with ((l1 ++ [y]) ++ l2) in * by (rewrite <- app_assoc; auto).
          destruct (IH (l1 ++ [y]) s' x Hr') as (s2 & r & E2 & Hr2 & Hs).
          { intros z Hz. apply in_app_iff in Hz. destruct Hz as [Hz|[<-|[]]]; auto. }
          replace (Z.of_nat (length (l1 ++ [y]))) with (Z.of_nat (length l1) + 1)%Z in E2 by (rewrite app_length; simpl; lia).
          exists s2, r. auto.
    Qed.

    Lemma first_ok : forall s l x, rep s l ->
      exists s' r, list_first_index A null oeq L I s x = Ok (s', r) /\ rep s' l /\
        match r with Some i => is_first_index A oeq l x i | None => ~ occurs A oeq l x end.
    Proof.
      intros. unfold list_first_index. rewrite (imp_count _ _ HI _ _ H).
      apply (first_loop_ok l [] s x H). intros y [].
    Qed.

    Lemma last_loop_ok : forall l1 l2 s x, rep s (rev l1 ++ l2) -> (forall y, In y l2 -> oeq x y = false) ->
      exists s' r, last_loop A null oeq L I (length l1) s x = Ok (s', r) /\ rep s' (rev l1 ++ l2) /\
        match r with Some i => is_last_index A oeq (rev l1 ++ l2) x i | None => ~ occurs A oeq (rev l1 ++ l2) x end.
    Proof.
      induction l1 as [|y l1 IH]; intros l2 s x Hr Hn; cbn [last_loop length].
      - exists s, None. split; auto. split; auto. intros (y & Hy & Ey). simpl in Hy.
        rewrite Hn in Ey; auto. discriminate.
      - cbn [rev] in *. rewrite <- app_assoc in *. cbn [app] in *.
        assert (Hlen := rev_length l1).
        destruct (get_object_ok s _ (length (rev l1)) y Hr (nth_split_here _ _ _)) as (s' & E & Hr').
        rewrite Hlen in E. rewrite E. cbn [obind fst snd]. destruct (oeq x y) eqn:Eq.
        + exists s', (Some (Z.of_nat (length l1))). split; auto. split; auto. split.
          * exists y. rewrite Nat2Z.id, <- Hlen, nth_split_here. split; [lia|auto].
          * intros j z Hj Hz. rewrite nth_error_app2 in Hz by lia.
            replace (Z.to_nat j - length (rev l1)) with (S (Z.to_nat j - length l1 - 1)) in Hz by lia.
            cbn [nth_error] in Hz. apply nth_error_In in Hz. auto.
        + destruct (IH (y :: l2) s' x Hr') as (s2 & r & E2 & Hr2 & Hs).
          { intros z [<-|Hz]; auto. }
          exists s2, r. auto.
    Qed.

    Lemma last_ok : forall s l x, rep s l ->
      exists s' r, list_last_index A null oeq L I s x = Ok (s', r) /\ rep s' l /\ match r with Some i => is_last_index A oeq l x i | None => ~ occurs A oeq l x end.
    Proof.
      intros s l x H. unfold list_last_index. rewrite (imp_count _ _ HI _ _ H).
      assert (G := last_loop_ok (rev l) [] s x). rewrite rev_involutive, app_nil_r, rev_length in G.
      apply G; auto. intros y [].
    Qed.

    Lemma first_occurs : forall l x i, is_first_index A oeq l x i -> occurs A oeq l x.
    Proof. intros l x i ((y & _ & Hy & E) & _). exists y. split; auto. eapply nth_error_In; eauto. Qed.

    Lemma contains_ok : forall s l x, rep s l ->
      exists s' b, list_contains A null oeq L I s x = Ok (s', b) /\ rep s' l /\ (b = true <-> occurs A oeq l x).
    Proof.
      intros s l x H. destruct (first_ok s l x H) as (s' & r & E & Hr & Hs).
      unfold list_contains. rewrite E. cbn [obind fst snd]. exists s', (match r with Some _ => true | None => false end).
      split; auto. split; auto. destruct r; split; intros; try discriminate; auto.
      eapply first_occurs; eauto.
    Qed.

    Lemma append_ok : forall s l x, rep s l -> (Z.of_nat (length l) <= INT64_MAX)%Z ->
      exists s', list_append_object A L I s x = Ok s' /\ rep s' (l ++ [x]).
    Proof.
      intros s l x H Hl. unfold list_append_object. rewrite (imp_count _ _ HI _ _ H).
      destruct (imp_replace _ _ HI s l (Z.of_nat (length l)) 0 [x] H) as (s' & E & Hr); [lia|].
      exists s'. split; auto. unfold seq_replace, valid_range in Hr.
      assert (E0 : ((0 <=? Z.of_nat (length l)) && (0 <=? 0) && (Z.of_nat (length l) + 0 <=? Z.of_nat (length l)))%Z = true).
      { rewrite !andb_true_iff, !Z.leb_le. lia. }
      rewrite E0 in Hr. unfold splice in Hr. rewrite Nat2Z.id in Hr. change (Z.to_nat 0) with 0 in Hr.
      rewrite Nat.add_0_r, firstn_all, skipn_all in Hr. auto.
    Qed.

    Lemma add_to_set_ok : forall s l x, rep s l -> (Z.of_nat (length l) <= INT64_MAX)%Z ->
      exists s' l', list_add_to_set A null oeq L I s x = Ok s' /\ rep s' l' /\
        ((occurs A oeq l x /\ l' = l) \/ (~ occurs A oeq l x /\ l' = l ++ [x])).
    Proof.
      intros s l x H Hl. destruct (first_ok s l x H) as (s1 & r & E & Hr & Hs).
      unfold list_add_to_set. rewrite E. cbn [obind fst snd]. destruct r.
      - exists s1, l. split; auto. split; auto. left. split; auto. eapply first_occurs; eauto.
      - destruct (append_ok s1 l x Hr Hl) as (s2 & E2 & Hr2). exists s2, (l ++ [x]). auto.
    Qed.

    Lemma get_member_ok : forall s l x, rep s l ->
      exists s' y, list_get_member A null oeq L I s x = Ok (s', y) /\ rep s' l /\
        ((exists i, is_first_index A oeq l x i /\ nth_error l (Z.to_nat i) = Some y) \/ (~ occurs A oeq l x /\ y = null)).
    Proof.
      intros s l x H. destruct (first_ok s l x H) as (s1 & r & E & Hr & Hs).
      unfold list_get_member. rewrite E. cbn [obind fst snd]. destruct r as [i|].
      - destruct Hs as ((y & Hi & Hy & Ey) & Hf). destruct (get_object_ok s1 l (Z.to_nat i) y Hr Hy) as (s2 & E2 & Hr2).
        rewrite Z2Nat.id in E2 by auto. exists s2, y. split; auto. split; auto. left. exists i. split; auto. split; auto.
        exists y. auto.
      - exists s1, null. auto.
    Qed.

    Lemma replace_one : forall l1 (y : A) l2, seq_replace A (l1 ++ y :: l2) (Z.of_nat (length l1)) 1 [] = l1 ++ l2.
    Proof.
      intros. unfold seq_replace, valid_range.
      assert (E0 : ((0 <=? Z.of_nat (length l1)) && (0 <=? 1) && (Z.of_nat (length l1) + 1 <=? Z.of_nat (length (l1 ++ y :: l2))))%Z = true).
      { rewrite !andb_true_iff, !Z.leb_le, app_length. simpl. lia. }
      rewrite E0. change (Z.to_nat 1) with 1. rewrite Nat2Z.id.
      rewrite (splice_app A l1 [y] l2 []); auto.
    Qed.

    Lemma remove_loop_ok : forall l2 l1 s x, rep s (l1 ++ l2) -> (Z.of_nat (length (l1 ++ l2)) <= INT64_MAX)%Z ->
      exists s', remove_loop A null oeq L I (length l2) s (Z.of_nat (length l1)) x = Ok s' /\ rep s' (l1 ++ without A oeq l2 x).
    Proof.
      induction l2 as [|y l2 IH]; intros l1 s x Hr Hl; cbn [remove_loop length].
      - exists s. auto.
      - destruct (get_object_ok s _ (length l1) y Hr (nth_split_here _ _ _)) as (s' & E & Hr').
        rewrite E. cbn [obind fst snd]. unfold without. cbn [filter]. rewrite app_length in Hl. cbn [length] in Hl.
        destruct (oeq x y) eqn:Eq; cbn [negb].
        + destruct (imp_replace _ _ HI s' _ (Z.of_nat (length l1)) 1 [] Hr') as (s2 & E2 & Hr2); [lia|].
          rewrite replace_one in Hr2. rewrite E2. cbn [obind]. apply IH; auto. rewrite app_length. lia.
        + replace (l1 ++ y :: filter (fun z => negb (oeq x z)) l2) with ((l1 ++ [y]) ++ without A oeq l2 x) by (rewrite <- app_assoc; auto).
          replace (l1 ++ y :: l2) with ((l1 ++ [y]) ++ l2) in * by (rewrite <- app_assoc; auto).
          replace (Z.of_nat (length l1) + 1)%Z with (Z.of_nat (length (l1 ++ [y]))) by (rewrite app_length; simpl; lia).
          apply IH; auto. rewrite !app_length. simpl. lia.
    Qed.

    Lemma remove_ok : forall s l x, rep s l -> (Z.of_nat (length l) <= INT64_MAX)%Z ->
      exists s', list_remove_object A null oeq L I s x = Ok s' /\ rep s' (without A oeq l x).
    Proof.
      intros. unfold list_remove_object. rewrite (imp_count _ _ HI _ _ H). apply (remove_loop_ok l [] s x); auto.
    Qed.

    Lemma remove_ends_ok : forall s l, rep s l -> (Z.of_nat (length l) <= INT64_MAX)%Z ->
      (exists s', list_remove_first A L I s = Ok s' /\ rep s' (tl l)) /\
      (exists s', list_remove_last A L I s = Ok s' /\ rep s' (removelast l)).
    Proof.
      intros s l H Hl. unfold list_remove_first, list_remove_last. rewrite (imp_count _ _ HI _ _ H). split.
      - destruct l as [|y l]; [exists s; auto|]. cbn [length Nat.ltb Nat.leb].
        destruct (imp_replace _ _ HI s _ 0%Z 1 [] H) as (s2 & E2 & Hr2); [unfold INT64_MAX; lia|].
        exists s2. split; auto. assert (G := replace_one [] y l). cbn [app length] in G. change (Z.of_nat 0) with 0%Z in G. rewrite G in Hr2. auto.
      - destruct l as [|y l] using rev_ind; [exists s; auto|]. clear IHl.
        rewrite app_length in *. cbn [length] in *. rewrite Nat.add_1_r in *. cbn [Nat.ltb Nat.leb].
        replace (Z.of_nat (S (length l)) - 1)%Z with (Z.of_nat (length l)) by lia.
        destruct (imp_replace _ _ HI s _ (Z.of_nat (length l)) 1 [] H) as (s2 & E2 & Hr2); [lia|].
        exists s2. split; auto. rewrite (replace_one l y []) in Hr2. rewrite removelast_last, app_nil_r in *. auto.
    Qed.

    (** Lexicographic comparison of two sequences of the same length. *)
    Lemma compare_loop_ok : forall k l1 l2 p1 p2 s1 s2, rep s1 (p1 ++ l1) -> rep s2 (p2 ++ l2) ->
      length p1 = length p2 -> k = length l1 -> length l1 = length l2 ->
      exists c, compare_loop A null ocmp L I k s1 s2 (Z.of_nat (length p1)) = Ok c /\
        (c = 0%Z <-> Forall2 (fun x y => ocmp x y = 0%Z) l1 l2) /\
        (c <> 0%Z -> exists q1 q2 x y r1 r2, l1 = q1 ++ x :: r1 /\ l2 = q2 ++ y :: r2 /\
           Forall2 (fun x y => ocmp x y = 0%Z) q1 q2 /\ c = ocmp x y).
    Proof.
      induction k; intros l1 l2 p1 p2 s1 s2 H1 H2 Hp Hk Hl; cbn [compare_loop].
      - destruct l1; [|discriminate]. destruct l2; [|discriminate]. exists 0%Z. split; auto. split; [split; auto|congruence].
      - destruct l1 as [|x l1]; [discriminate|]. destruct l2 as [|y l2]; [discriminate|].
        destruct (get_object_ok s1 _ (length p1) x H1 (nth_split_here _ _ _)) as (s1' & E1 & H1').
        destruct (get_object_ok s2 _ (length p2) y H2 (nth_split_here _ _ _)) as (s2' & E2 & H2').
        rewrite E1. cbn [obind fst snd]. rewrite Hp, E2. cbn [obind fst snd].
        destruct (ocmp x y =? 0)%Z eqn:E.
        + apply Z.eqb_eq in E.
          replace (p1 ++ x :: l1) with ((p1 ++ [x]) ++ l1) in H1' by (rewrite <- app_assoc; auto).
          replace (p2 ++ y :: l2) with ((p2 ++ [y]) ++ l2) in H2' by (rewrite <- app_assoc; auto).
          destruct (IHk l1 l2 (p1 ++ [x]) (p2 ++ [y]) s1' s2') as (c & Ec & Hz & Hnz); auto.
          { rewrite !app_length. simpl. lia. }
          replace (Z.of_nat (length p2) + 1)%Z with (Z.of_nat (length (p1 ++ [x]))) by (rewrite app_length; simpl; lia).
          exists c. split; auto. split.
          * rewrite Hz. split; intros H; [constructor; auto|inversion H; auto].
          * intros Hc. destruct (Hnz Hc) as (q1 & q2 & x' & y' & r1 & r2 & -> & -> & F & ->).
            exists (x :: q1), (y :: q2), x', y', r1, r2. split; auto.
        + apply Z.eqb_neq in E. exists (ocmp x y). split; auto. split.
          * split; [congruence|]. intros H. inversion H; auto.
          * intros _. exists [], [], x, y, l1, l2. split; auto.
    Qed.

    Lemma compare_ok : forall s1 s2 l1 l2, rep s1 l1 -> rep s2 l2 -> length l1 = length l2 ->
      exists c, list_compare A null ocmp L I s1 s2 = Ok c /\
        (c = 0%Z <-> Forall2 (fun x y => ocmp x y = 0%Z) l1 l2) /\
        (c <> 0%Z -> exists q1 q2 x y r1 r2, l1 = q1 ++ x :: r1 /\ l2 = q2 ++ y :: r2 /\
           Forall2 (fun x y => ocmp x y = 0%Z) q1 q2 /\ c = ocmp x y).
    Proof.
      intros s1 s2 l1 l2 H1 H2 Hl. unfold list_compare. rewrite (imp_count _ _ HI _ _ H1).
      apply (compare_loop_ok (length l1) l1 l2 [] []); auto.
    Qed.
  End One.

  Section Two.
    Variable L1 L2 : Type.
    Variable I1 : list_interface A L1.
    Variable I2 : list_interface A L2.
    Variable rep1 : L1 -> list A -> Prop.
    Variable rep2 : L2 -> list A -> Prop.
    Hypothesis HI1 : implements I1 rep1.
    Hypothesis HI2 : implements I2 rep2.

    Lemma equal_loop_ok : forall k l1 l2 p1 p2 s1 s2, rep1 s1 (p1 ++ l1) -> rep2 s2 (p2 ++ l2) ->
      length p1 = length p2 -> k = length l1 -> length l1 = length l2 ->
      exists b, equal_loop A null oeq I1 I2 k s1 s2 (Z.of_nat (length p1)) = Ok b /\
        (b = true <-> forall i x y, nth_error l1 i = Some x -> nth_error l2 i = Some y -> oeq x y = true).
    Proof.
      induction k; intros l1 l2 p1 p2 s1 s2 H1 H2 Hp Hk Hl; cbn [equal_loop].
      - destruct l1; [|discriminate]. exists true. split; auto. split; auto. intros _ [|i] x y Hx; discriminate.
      - destruct l1 as [|x l1]; [discriminate|]. destruct l2 as [|y l2]; [discriminate|].
        destruct (get_object_ok L1 I1 rep1 HI1 s1 _ (length p1) x H1 (nth_split_here _ _ _)) as (s1' & E1 & H1').
        destruct (get_object_ok L2 I2 rep2 HI2 s2 _ (length p2) y H2 (nth_split_here _ _ _)) as (s2' & E2 & H2').
        rewrite E1. cbn [obind fst snd]. rewrite Hp, E2. cbn [obind fst snd].
        destruct (oeq x y) eqn:E.
        + replace (p1 ++ x :: l1) with ((p1 ++ [x]) ++ l1) in H1' by (rewrite <- app_assoc; auto).
          replace (p2 ++ y :: l2) with ((p2 ++ [y]) ++ l2) in H2' by (rewrite <- app_assoc; auto).
          destruct (IHk l1 l2 (p1 ++ [x]) (p2 ++ [y]) s1' s2') as (b & Eb & Hb); auto.
          { rewrite !app_length. simpl. lia. }
          replace (Z.of_nat (length p2) + 1)%Z with (Z.of_nat (length (p1 ++ [x]))) by (rewrite app_length; simpl; lia).
          exists b. split; auto. rewrite Hb. split.
          * intros H [|i] a c Ha Hc; [cbn in Ha, Hc; congruence|apply (H i); auto].
          * intros H i a c Ha Hc. apply (H (S i)); auto.
        + exists false. split; auto. split; [discriminate|]. intros H. specialize (H 0 x y eq_refl eq_refl). congruence.
    Qed.

    Lemma equal_ok : forall s1 s2 l1 l2, rep1 s1 l1 -> rep2 s2 l2 ->
      exists b, list_equal A null oeq I1 I2 s1 s2 = Ok b /\ (b = true <-> pairwise_equal A oeq l1 l2).
    Proof.
      intros s1 s2 l1 l2 H1 H2. unfold list_equal.
      rewrite (imp_count _ _ HI1 _ _ H1), (imp_count _ _ HI2 _ _ H2).
      destruct (length l2 =? length l1) eqn:E.
      - apply Nat.eqb_eq in E. destruct (equal_loop_ok (length l1) l1 l2 [] [] s1 s2) as (b & Eb & Hb); auto.
        exists b. split; auto. rewrite Hb. unfold pairwise_equal. split; [auto|tauto].
      - apply Nat.eqb_neq in E. exists false. split; auto. split; [discriminate|]. intros [H _]. congruence.
    Qed.
  End Two.
End Lists.


(** ** Arrays with a history *)
Section ArrayLists.
  Variable A : Type.
  Variable null : A.
  Variable oeq : A -> A -> bool.
  Variable ocmp : A -> A -> Z.

  Lemma ainv_init : ainv A array_init [].
  Proof. apply ainv_null; auto. Qed.

  Lemma ainv_shows : forall a l, ainv A a l -> shows a l.
  Proof.
    intros a l H. split; [apply (ainv_len A); auto|]. intros i.
    destruct (imp_get A (array_interface A null) (ainv A) (array_implements A null) a l i H) as (s' & E & _).
    cbn [array_interface getObjectAtIndex] in E. destruct (array_get A a i); cbn in E; try discriminate. congruence.
  Qed.

  Lemma run_ainv : forall os a rs, fits A [] os -> array_run A null array_init os = Ok (a, rs) ->
    rs = snd (seq_run A [] os) /\ ainv A a (fst (seq_run A [] os)).
  Proof.
    intros os a rs Hf Hr. destruct (array_run_ok A null os array_init [] ainv_init Hf) as (a' & E & H).
    rewrite Hr in E. inversion E; subst. auto.
  Qed.

  Lemma fits_final : forall os l, fits A l os -> (Z.of_nat (length (fst (seq_run A l os))) <= INT64_MAX)%Z.
  Proof.
    induction os as [|o os IH]; intros l H; cbn [seq_run]; destruct H as [H1 H2]; auto.
    destruct H2 as [_ H2]. destruct (seq_step A l o) as [l1 r]. specialize (IH l1 H2). cbn [fst] in *.
    destruct (seq_run A l1 os); auto.
  Qed.

  Lemma array_sequence : forall os, fits A [] os ->
    exists a, array_run A null array_init os = Ok (a, snd (seq_run A [] os)) /\ shows a (fst (seq_run A [] os)).
  Proof.
    intros os Hf. destruct (array_run_ok A null os array_init [] ainv_init Hf) as (a' & E & H).
    exists a'. split; auto. apply ainv_shows; auto.
  Qed.

  Lemma array_enumeration : forall os a rs, fits A [] os -> array_run A null array_init os = Ok (a, rs) ->
    forall S (cb : S -> A -> S * bool) (visit : S -> list A -> S * bool),
      (forall s, visit s [] = (s, false)) ->
      (forall s x l, visit s (x :: l) = let (s', stop) := cb s x in if stop then (s', true) else visit s' l) ->
      forall s, array_apply A cb s a = Ok (visit s (fst (seq_run A [] os))).
  Proof.
    intros os a rs Hf Hr S cb visit V1 V2 s. destruct (run_ainv os a rs Hf Hr) as [_ H].
    apply (apply_ok A S cb visit); auto.
  Qed.

  Notation AI := (array_interface A null).
  Notation imp := (array_implements A null).

  Lemma array_ends : forall os a rs x, fits A [] os -> array_run A null array_init os = Ok (a, rs) ->
    let l := fst (seq_run A [] os) in
    (exists a', list_remove_first A _ AI a = Ok a' /\ shows a' (tl l)) /\
    (exists a', list_remove_last A _ AI a = Ok a' /\ shows a' (removelast l)) /\
    (exists a' y, list_get_member A null oeq _ AI a x = Ok (a', y) /\ shows a' l /\
       ((exists i, is_first_index A oeq l x i /\ nth_error l (Z.to_nat i) = Some y) \/ (~ occurs A oeq l x /\ y = null))).
  Proof.
    intros os a rs x Hf Hr l. destruct (run_ainv os a rs Hf Hr) as [_ H]. fold l in H.
    assert (Hl : (Z.of_nat (length l) <= INT64_MAX)%Z) by (apply fits_final; auto).
    destruct (remove_ends_ok A _ AI (ainv A) imp a l H Hl) as [(s1 & E1 & P1) (s2 & E2 & P2)].
    destruct (get_member_ok A null oeq _ AI (ainv A) imp a l x H) as (s3 & y & E3 & P3 & Q3).
    split; [exists s1; split; [auto|apply ainv_shows; auto]|].
    split; [exists s2; split; [auto|apply ainv_shows; auto]|].
    exists s3, y. split; [auto|split; [apply ainv_shows; auto|auto]].
  Qed.

  Lemma array_search : forall os a rs x, fits A [] os -> array_run A null array_init os = Ok (a, rs) ->
    let l := fst (seq_run A [] os) in
    (exists r, list_first_index A null oeq _ AI a x = Ok (a, r) /\
       match r with Some i => is_first_index A oeq l x i | None => ~ occurs A oeq l x end) /\
    (exists r, list_last_index A null oeq _ AI a x = Ok (a, r) /\
       match r with Some i => is_last_index A oeq l x i | None => ~ occurs A oeq l x end) /\
    list_count_of_object A null oeq _ AI a x = Ok (a, occurrences A oeq l x) /\
    (exists b, list_contains A null oeq _ AI a x = Ok (a, b) /\ (b = true <-> occurs A oeq l x)) /\
    (exists a', list_remove_object A null oeq _ AI a x = Ok a' /\ shows a' (without A oeq l x)) /\
    (exists a' l', list_add_to_set A null oeq _ AI a x = Ok a' /\ shows a' l' /\
       ((occurs A oeq l x /\ l' = l) \/ (~ occurs A oeq l x /\ l' = l ++ [x]))).
  Proof.
    intros os a rs x Hf Hr l. destruct (run_ainv os a rs Hf Hr) as [_ H]. fold l in H.
    assert (Hl : (Z.of_nat (length l) <= INT64_MAX)%Z) by (apply fits_final; auto).
    (* reading leaves an array unchanged *)
    assert (Hget : forall i r, get_object A null _ AI a i = Ok r -> fst r = a).
    { intros i r. unfold get_object. cbn [array_interface getObjectAtIndex]. destruct (array_get A a i); cbn; try discriminate.
      intros E; inversion E; auto. }
    assert (Hfirst : forall k i r, first_loop A null oeq _ AI k a i x = Ok r -> fst r = a).
    { induction k; intros i r E; cbn [first_loop] in E; [inversion E; auto|].
      destruct (get_object A null _ AI a i) as [g| | |] eqn:Eg; cbn [obind] in E; try discriminate.
      assert (Hg := Hget _ _ Eg). rewrite Hg in E. destruct (oeq x (snd g)); [inversion E; auto|eauto]. }
    assert (Hlast : forall k r, last_loop A null oeq _ AI k a x = Ok r -> fst r = a).
    { induction k; intros r E; cbn [last_loop] in E; [inversion E; auto|].
      destruct (get_object A null _ AI a (Z.of_nat k)) as [g| | |] eqn:Eg; cbn [obind] in E; try discriminate.
      assert (Hg := Hget _ _ Eg). rewrite Hg in E. destruct (oeq x (snd g)); [inversion E; auto|eauto]. }
    assert (Hcount : forall k i n r, count_loop A null oeq _ AI k a i x n = Ok r -> fst r = a).
    { induction k; intros i n r E; cbn [count_loop] in E; [inversion E; auto|].
      destruct (get_object A null _ AI a i) as [g| | |] eqn:Eg; cbn [obind] in E; try discriminate.
      assert (Hg := Hget _ _ Eg). rewrite Hg in E. eauto. }
    destruct (first_ok A null oeq _ AI (ainv A) imp a l x H) as (s1 & r1 & E1 & _ & P1).
    assert (s1 = a) by (apply (Hfirst _ _ _ E1)). subst s1.
    destruct (last_ok A null oeq _ AI (ainv A) imp a l x H) as (s2 & r2 & E2 & _ & P2).
    assert (s2 = a) by (apply (Hlast _ _ E2)). subst s2.
    destruct (count_ok A null oeq _ AI (ainv A) imp a l x H) as (s3 & E3 & _).
    assert (s3 = a) by (apply (Hcount _ _ _ _ E3)). subst s3.
    destruct (contains_ok A null oeq _ AI (ainv A) imp a l x H) as (s4 & b & E4 & _ & P4).
    assert (s4 = a). { unfold list_contains in E4. rewrite E1 in E4. cbn in E4. inversion E4; auto. } subst s4.
    destruct (remove_ok A null oeq _ AI (ainv A) imp a l x H Hl) as (s5 & E5 & P5).
    destruct (add_to_set_ok A null oeq _ AI (ainv A) imp a l x H Hl) as (s6 & l6 & E6 & P6 & Q6).
    split; [eauto|]. split; [eauto|]. split; [auto|]. split; [eauto|].
    split; [exists s5; split; auto; apply ainv_shows; auto|].
    exists s6, l6. split; auto. split; auto. apply ainv_shows; auto.
  Qed.

  Lemma array_equality : forall os1 os2 a1 a2 rs1 rs2, fits A [] os1 -> fits A [] os2 ->
    array_run A null array_init os1 = Ok (a1, rs1) -> array_run A null array_init os2 = Ok (a2, rs2) ->
    let l1 := fst (seq_run A [] os1) in
    let l2 := fst (seq_run A [] os2) in
    (exists b, list_equal A null oeq AI AI a1 a2 = Ok b /\ (b = true <-> pairwise_equal A oeq l1 l2)) /\
    (length l1 = length l2 ->
       exists c, list_compare A null ocmp _ AI a1 a2 = Ok c /\
        (c = 0%Z <-> Forall2 (fun x y => ocmp x y = 0%Z) l1 l2) /\
        (c <> 0%Z -> exists q1 q2 x y r1 r2, l1 = q1 ++ x :: r1 /\ l2 = q2 ++ y :: r2 /\
           Forall2 (fun x y => ocmp x y = 0%Z) q1 q2 /\ c = ocmp x y)).
  Proof.
    intros os1 os2 a1 a2 rs1 rs2 Hf1 Hf2 Hr1 Hr2 l1 l2.
    destruct (run_ainv os1 a1 rs1 Hf1 Hr1) as [_ H1]. destruct (run_ainv os2 a2 rs2 Hf2 Hr2) as [_ H2].
    split.
    - eapply equal_ok; eauto using (array_implements A null).
    - intros Hl. eapply compare_ok; eauto using (array_implements A null).
  Qed.
End ArrayLists.

Section SelfInsertion.
  Variable A : Type.
  Variable null : A.

  Lemma copy_self_start : forall fuel a L i, ainv A a L -> i <= length L -> length L - i < fuel ->
    exists a', copy_from_self A fuel a i i = Ok a' /\ ainv A a' L.
  Proof.
    induction fuel; intros a L i H Hi Hf; [lia|]. cbn [copy_from_self]. rewrite (ainv_len A _ _ H).
    destruct (i <? length L) eqn:E; [|eauto]. apply Nat.ltb_lt in E.
    destruct (nth_error L i) as [x|] eqn:Ex; [|apply nth_error_None in Ex; lia].
    rewrite (read_ok A a L i x H Ex). cbn [obind].
    destruct (write_ok A a L i x H E) as (a' & E' & H'). rewrite E'. cbn [obind].
    assert (Hs : upd L i x = L).
    { clear - Ex. revert i Ex. induction L; destruct i; cbn; intros; try discriminate; [congruence|f_equal; auto]. }
    rewrite Hs in H'. apply IHfuel; auto; lia.
  Qed.

  Lemma copy_self_beyond : forall fuel a L i loc, ainv A a L -> 0 < loc -> i + loc <= length L -> length L - i < fuel ->
    copy_from_self A fuel a i (i + loc) = UB.
  Proof.
    induction fuel; intros a L i loc H Hl Hi Hf; [lia|]. cbn [copy_from_self]. rewrite (ainv_len A _ _ H).
    assert (E : (i <? length L) = true) by (apply Nat.ltb_lt; lia). rewrite E. apply Nat.ltb_lt in E.
    destruct (nth_error L i) as [x|] eqn:Ex; [|apply nth_error_None in Ex; lia].
    rewrite (read_ok A a L i x H Ex). cbn [obind].
    destruct (Nat.eq_dec (i + loc) (length L)) as [Ee|Ne].
    - unfold write_element. rewrite (ainv_len A _ _ H), Ee, Nat.ltb_irrefl. auto.
    - destruct (write_ok A a L (i + loc) x H ltac:(lia)) as (a' & E' & H'). rewrite E'. cbn [obind].
      change (S (i + loc)) with (S i + loc). apply (IHfuel a' (upd L (i + loc) x)); auto; rewrite ?upd_length; lia.
  Qed.

  Lemma self_insertion_partial : forall (os : list (aop A)) a rs, fits A [] os ->
    array_run A null array_init os = Ok (a, rs) ->
    let l := fst (seq_run A [] os) in
    forall loc len, valid_range A loc len l = true ->
      (l = [] -> exists a', array_replace_range_with_self A null a loc len = Ok a' /\ shows a' []) /\
      (l <> [] -> loc <> 0%Z -> array_replace_range_with_self A null a loc len = UB) /\
      (loc = 0%Z -> exists a', array_replace_range_with_self A null a loc len = Ok a' /\
         shows a' (repeat null (length l) ++ skipn (Z.to_nat len) l)).
  Proof.
    intros os a rs Hf Hr l loc len Hv. destruct (run_ainv A null os a rs Hf Hr) as [_ H]. fold l in H.
    assert (Hl : (Z.of_nat (length l) <= INT64_MAX)%Z) by (apply fits_final; auto).
    assert (V : (0 <= loc /\ 0 <= len /\ loc + len <= Z.of_nat (length l))%Z)
      by (unfold valid_range in Hv; rewrite !andb_true_iff, !Z.leb_le in Hv; tauto).
    destruct V as (V1 & V2 & V3).
    assert (Hgen : exists a1, (forall r, (do _ <- read_elements A a (Z.to_nat loc) (Z.to_nat len);
        do a1 <- replace_elements A null a (Z.to_nat loc) (Z.to_nat len) None (glen a); r a1) = r a1 :> outcome (garray A)) /\
        ainv A a1 (splice A l (Z.to_nat loc) (Z.to_nat len) (repeat null (length l)))).
    { destruct (replace_ok A null a l (Z.to_nat loc) (Z.to_nat len) None (length l) (repeat null (length l))) as (a1 & E & H1); auto; try lia; [apply repeat_length|].
      exists a1. split; auto. intros r.
      rewrite (reads_ok A (Z.to_nat len) a l (Z.to_nat loc) H) by lia. cbn [obind].
      rewrite (ainv_len A _ _ H), E. auto. }
    destruct Hgen as (a1 & Hg & H1).
    assert (Heq : array_replace_range_with_self A null a loc len = copy_from_self A (S (glen a1)) a1 0 (Z.to_nat loc)).
    { unfold array_replace_range_with_self. rewrite (ainv_len A _ _ H) at 1. rewrite check_range_ok by lia.
      rewrite Hv. cbn [obind]. apply Hg. }
    rewrite Heq. rewrite (ainv_len A _ _ H1).
    assert (Hz : loc = 0%Z -> exists a', copy_from_self A (S (length (splice A l (Z.to_nat loc) (Z.to_nat len) (repeat null (length l))))) a1 0 (Z.to_nat loc) = Ok a' /\
         shows a' (repeat null (length l) ++ skipn (Z.to_nat len) l)).
    { intros ->. change (Z.to_nat 0) with 0 in *.
      destruct (copy_self_start (S (length (splice A l 0 (Z.to_nat len) (repeat null (length l))))) a1 _ 0 H1) as (a' & E & H'); try lia.
      exists a'. split; auto. apply (ainv_shows A null) in H'. exact H'. }
    split; [|split; auto].
    - intros El. rewrite El in V3. cbn in V3. destruct Hz as (a' & E & Hs); [lia|].
      exists a'. split; auto. rewrite El in Hs. cbn in Hs. rewrite skipn_nil in Hs. auto.
    - intros Hn Hne. apply (copy_self_beyond _ a1 _ 0 (Z.to_nat loc) H1); try lia.
      unfold splice. rewrite !app_length, firstn_length. lia.
  Qed.
End SelfInsertion.

Lemma self_insertion_refuted : exists (os : list (aop nat)) a rs,
    let null := 0 in
    fits _ [] os /\ array_run _ null array_init os = Ok (a, rs) /\
    fst (seq_run _ [] os) = [7; 8] /\
    array_replace_range_with_self _ null a 2 0 = UB /\
    exists a', array_replace_range_with_self _ null a 0 0 = Ok a' /\
      array_get_range _ a' 0 4 = Ok (Some [0; 0; 7; 8]).
Proof.
  exists [AAppend [7; 8]]. eexists. eexists. cbv zeta.
  split; [vm_compute; repeat split; discriminate|].
  split; [vm_compute; reflexivity|]. split; [reflexivity|]. split; [vm_compute; reflexivity|].
  eexists. split; vm_compute; reflexivity.
Qed.

Lemma list_compare_refuted :
  exists (os1 os2 : list (aop (option Z))) a1 a2 rs1 rs2,
    let ocmp := fun x y : option Z =>
      match x, y with
      | Some x, Some y => if (x <? y)%Z then 1%Z else if (y <? x)%Z then (-1)%Z else 0%Z
      | None, None => 0%Z | None, Some _ => (-1)%Z | Some _, None => 1%Z
      end in
    let I := array_interface (option Z) None in
    fits _ [] os1 /\ fits _ [] os2 /\
    array_run _ None array_init os1 = Ok (a1, rs1) /\ array_run _ None array_init os2 = Ok (a2, rs2) /\
    list_compare _ None ocmp _ I a1 a2 = Ok 0%Z /\
    list_compare _ None ocmp _ I a2 a1 = Ok 1%Z /\
    fst (seq_run _ [] os1) <> fst (seq_run _ [] os2).
Proof.
  exists [AAppend [Some 1%Z]], [AAppend [Some 1%Z; Some 2%Z]]. do 4 eexists. cbv zeta.
  split; [vm_compute; repeat split; discriminate|].
  split; [vm_compute; repeat split; discriminate|].
  split; [vm_compute; reflexivity|]. split; [vm_compute; reflexivity|].
  split; [vm_compute; reflexivity|]. split; [vm_compute; reflexivity|]. vm_compute. discriminate.
Qed.

Lemma search_case :
  let os := [AAppend [1; 2; 1; 3]] in
  fits nat [] os /\
  exists a rs, array_run nat 0 array_init os = Ok (a, rs) /\
    list_first_index nat 0 Nat.eqb _ (array_interface nat 0) a 1 = Ok (a, Some 0%Z) /\
    list_last_index nat 0 Nat.eqb _ (array_interface nat 0) a 1 = Ok (a, Some 2%Z) /\
    (exists a', list_remove_object nat 0 Nat.eqb _ (array_interface nat 0) a 1 = Ok a' /\ shows a' [2; 3]) /\
    list_equal nat 0 Nat.eqb (array_interface nat 0) (array_interface nat 0) a a = Ok true.
Proof.
  cbv zeta. assert (F : fits nat [] [AAppend [1; 2; 1; 3]]) by (vm_compute; repeat split; discriminate).
  split; auto. destruct (array_sequence nat 0 _ F) as (a & E & _). exists a. eexists. split; [exact E|].
  destruct (array_search nat 0 Nat.eqb _ a _ 1 F E) as (_ & _ & _ & _ & R & _).
  vm_compute in E. inversion E; subst.
  split; [vm_compute; reflexivity|]. split; [vm_compute; reflexivity|]. split; [exact R|]. vm_compute. reflexivity.
Qed.
