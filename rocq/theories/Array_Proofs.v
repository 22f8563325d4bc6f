Require Import Coq.ZArith.ZArith Coq.Lists.List Coq.Bool.Bool Coq.Arith.Arith Coq.micromega.Lia.
Require Import Verif.Base Verif.Array_Model Verif.Array_Spec.
Import ListNotations.

Lemma firstn_len_app : forall A (l1 l2 : list A) n, n = length l1 -> firstn n (l1 ++ l2) = l1.
Proof. intros. subst. rewrite firstn_app, firstn_all, Nat.sub_diag. simpl. apply app_nil_r. Qed.
Lemma skipn_len_app : forall A (l1 l2 : list A) n, n = length l1 -> skipn n (l1 ++ l2) = l2.
Proof. intros. subst. rewrite skipn_app, skipn_all, Nat.sub_diag. auto. Qed.

Lemma skipn_plus_app : forall A (l1 l2 : list A) n m, m = length l1 + n -> skipn m (l1 ++ l2) = skipn n l2.
Proof. intros. subst. rewrite skipn_app, skipn_all2 by lia. simpl. f_equal. lia. Qed.

Lemma map_repeat : forall A B (f : A -> B) x n, map f (repeat x n) = repeat (f x) n.
Proof. induction n; simpl; congruence. Qed.

Lemma list_split3 : forall A (l : list A) i n, i + n <= length l ->
  exists l1 l2 l3, l = l1 ++ l2 ++ l3 /\ length l1 = i /\ length l2 = n.
Proof.
  intros. exists (firstn i l), (firstn n (skipn i l)), (skipn n (skipn i l)).
  rewrite !firstn_skipn. split; auto. rewrite !firstn_length, !skipn_length. lia.
Qed.

Section Proofs.
  Variable A : Type.
  Variable zero : A.

  Lemma mem_copy_app : forall (d1 d2 d3 s1 s2 s3 : list (option A)) dpos spos n,
    dpos = length d1 -> spos = length s1 -> n = length s2 -> n = length d2 ->
    mem_copy A (d1 ++ d2 ++ d3) dpos (s1 ++ s2 ++ s3) spos n = Ok (d1 ++ s2 ++ d3).
  Proof.
    intros. unfold mem_copy.
    assert (E : (dpos + n <=? length (d1 ++ d2 ++ d3)) && (spos + n <=? length (s1 ++ s2 ++ s3)) = true).
    { rewrite ?app_length. apply andb_true_iff. split; apply Nat.leb_le; lia. }
    rewrite E. f_equal. rewrite firstn_len_app by auto. rewrite skipn_len_app by auto.
    rewrite firstn_len_app by auto.
    rewrite (app_assoc d1 d2 d3), skipn_len_app by (rewrite app_length; lia). auto.
  Qed.

  (** [a] holds the sequence [l]. *)
  Inductive ainv (a : garray A) (l : list A) : Prop :=
  | ainv_null : a = array_init -> l = [] -> ainv a l
  | ainv_alloc : forall tl, elements a = Some (map Some l ++ tl) -> glen a = length l ->
      gmax a = length l + length tl -> ainv a l.

  Lemma ainv_len : forall a l, ainv a l -> glen a = length l.
  Proof. intros a l [-> ->|tl E1 E2 E3]; auto. Qed.

  Lemma replace_ok : forall a l loc len src count new,
    ainv a l -> loc + len <= length l ->
    length new = count -> (src = Some new \/ (src = None /\ new = repeat zero count)) ->
    exists a', replace_elements A zero a loc len src count = Ok a' /\ ainv a' (splice A l loc len new).
  Proof.
    intros a l loc len src count new Hinv Hr Hc Hsrc.
    assert (Hlen := ainv_len _ _ Hinv). unfold replace_elements.
    assert (E : glen a <? loc + len = false) by (apply Nat.ltb_ge; lia). rewrite E.
    destruct (list_split3 _ l loc len Hr) as (l1 & l2 & l3 & -> & H1 & H2).
    assert (Hsp : splice A (l1 ++ l2 ++ l3) loc len new = l1 ++ new ++ l3).
    { unfold splice. rewrite firstn_len_app by auto. f_equal. f_equal.
      rewrite app_assoc, skipn_len_app by (rewrite app_length; lia). auto. }
    destruct ((len =? 0) && (count =? 0)) eqn:E0.
    { apply andb_true_iff in E0. destruct E0 as [Ea Eb]. apply Nat.eqb_eq in Ea, Eb.
      exists a. split; auto. rewrite Hsp.
      destruct l2; [|simpl in H2; lia]. destruct new; [|simpl in Hc; lia]. auto. }
    rewrite Hsp. rewrite ?app_length in Hlen.
    (* the last copy *)
    assert (Hlast : forall m M, length m = count ->
       (match src with
        | Some l0 => mem_copy A (map Some l1 ++ m ++ M) loc (map Some l0) 0 count
        | None => mem_copy A (map Some l1 ++ m ++ M) loc (repeat (Some zero) count) 0 count
        end) = Ok (map Some l1 ++ map Some new ++ M)).
    { intros m M Hm. destruct Hsrc as [-> |[-> ->]].
      - replace (map Some new) with ([] ++ map Some new ++ []) at 1 by (simpl; apply app_nil_r).
        apply mem_copy_app; rewrite ?map_length; auto.
      - rewrite map_repeat. replace (repeat (Some zero) count) with ([] ++ repeat (Some zero) count ++ []) at 1 by (simpl; apply app_nil_r).
        apply mem_copy_app; rewrite ?map_length, ?repeat_length; auto. }
    set (newLength := glen a + count - len).
    assert (Hnl : newLength = length (l1 ++ new ++ l3)) by (unfold newLength; rewrite ?app_length; lia).
    unfold resize_array. fold newLength.
    destruct (newLength <=? gmax a) eqn:Ef.
    - (* in place *)
      apply Nat.leb_le in Ef. destruct Hinv as [-> El|tl Eel Egl Egm].
      + exfalso. simpl in *. assert (length (l1 ++ l2 ++ l3) = 0) by (rewrite El; auto).
        rewrite ?app_length in *. rewrite Hnl in Ef. rewrite ?app_length in Ef.
        apply andb_false_iff in E0. destruct E0 as [E0|E0]; apply Nat.eqb_neq in E0; lia.
      + rewrite Eel. rewrite ?app_length in Egm, Egl.
        destruct (list_split3 _ (map Some (l1 ++ l2 ++ l3) ++ tl) (loc + count) (length l3)) as (d1 & d2 & d3 & Ed & Hd1 & Hd2).
        { rewrite app_length, map_length, !app_length. rewrite Hnl in Ef. rewrite ?app_length in Ef. lia. }
        assert (Hcopy : mem_copy A (map Some (l1 ++ l2 ++ l3) ++ tl) (loc + count)
           (map Some (l1 ++ l2 ++ l3) ++ tl) (loc + len) (glen a - (loc + len)) = Ok (d1 ++ map Some l3 ++ d3)).
        { rewrite Ed at 1. replace (map Some (l1 ++ l2 ++ l3) ++ tl) with ((map Some l1 ++ map Some l2) ++ map Some l3 ++ tl).
          - apply mem_copy_app; rewrite ?app_length, ?map_length; lia.
          - rewrite !map_app, !app_assoc. auto. }
        rewrite Hcopy. cbn [obind].
        assert (Hd1' : exists X, d1 = map Some l1 ++ X /\ length X = count).
        { exists (skipn loc d1). split; [|rewrite skipn_length; lia].
          rewrite <- (firstn_skipn loc d1) at 1. f_equal.
          assert (firstn loc (d1 ++ d2 ++ d3) = map Some l1).
          { rewrite <- Ed, map_app, <- app_assoc. apply firstn_len_app. rewrite map_length. auto. }
          rewrite firstn_app in H. replace (loc - length d1) with 0 in H by lia.
          simpl in H. rewrite app_nil_r in H. auto. }
        destruct Hd1' as (X & -> & HX). rewrite <- app_assoc, (Hlast X (map Some l3 ++ d3) HX). cbn [obind].
        eexists. split; [reflexivity|]. apply (ainv_alloc _ _ d3); cbn [elements glen gmax].
        * rewrite !map_app, <- !app_assoc. auto.
        * auto.
        * assert (Hlen2 : length (map Some (l1 ++ l2 ++ l3) ++ tl) = length ((map Some l1 ++ X) ++ d2 ++ d3)) by (rewrite Ed; auto).
          rewrite ?app_length, !map_length, !app_length in Hlen2. rewrite ?app_length. lia.
    - (* fresh block *)
      apply Nat.leb_gt in Ef.
      set (newMax := Nat.max 32 (Nat.max newLength (gmax a + gmax a / 4))).
      assert (Hnm : newLength <= newMax) by (unfold newMax; lia).
      assert (Hrep : repeat (@None A) newMax = repeat None loc ++ repeat None count ++ repeat None (length l3) ++ repeat None (newMax - newLength)).
      { rewrite <- !repeat_app. f_equal. rewrite Hnl in *. rewrite ?app_length in *. lia. }
      assert (Hfin : exists a', Ok (mkArray (Some ((map Some l1 ++ map Some new ++ map Some l3 ++ repeat None (newMax - newLength)))) newLength newMax) = Ok a'
                      /\ ainv a' (l1 ++ new ++ l3)).
      { eexists. split; [reflexivity|]. apply (ainv_alloc _ _ (repeat None (newMax - newLength))); cbn [elements glen gmax].
        - rewrite !map_app, <- !app_assoc. auto.
        - auto.
        - rewrite repeat_length. rewrite <- Hnl. lia. }
      destruct Hinv as [-> El|tl Eel Egl Egm].
      + assert (length (l1 ++ l2 ++ l3) = 0) by (rewrite El; auto). rewrite ?app_length in *.
        destruct l1; [|simpl in *; lia]. destruct l3; [|simpl in *; lia].
        cbn [elements array_init obind]. rewrite Hrep. simpl in H1. subst loc.
        cbn [repeat app length]. specialize (Hlast (repeat None count) (repeat None (newMax - newLength)) ltac:(apply repeat_length)). cbn [map app] in Hlast. rewrite Hlast.
        cbn [obind]. apply Hfin.
      + rewrite Eel. rewrite Hrep.
        assert (Hc1 : mem_copy A (repeat None loc ++ repeat None count ++ repeat None (length l3) ++ repeat None (newMax - newLength)) 0
          (map Some (l1 ++ l2 ++ l3) ++ tl) 0 loc = Ok (map Some l1 ++ repeat None count ++ repeat None (length l3) ++ repeat None (newMax - newLength))).
        { replace (map Some (l1 ++ l2 ++ l3) ++ tl) with ([] ++ map Some l1 ++ (map Some (l2 ++ l3) ++ tl)) by (rewrite !map_app, <- !app_assoc; auto).
          change (repeat None loc ++ repeat None count ++ repeat None (length l3) ++ repeat None (newMax - newLength)) with
            ([] ++ repeat (@None A) loc ++ repeat None count ++ repeat None (length l3) ++ repeat None (newMax - newLength)).
          rewrite mem_copy_app; rewrite ?map_length, ?repeat_length; auto. }
        rewrite Hc1. cbn [obind].
        assert (Hc2 : mem_copy A (map Some l1 ++ repeat None count ++ repeat None (length l3) ++ repeat None (newMax - newLength)) (loc + count)
          (map Some (l1 ++ l2 ++ l3) ++ tl) (loc + len) (glen a - (loc + len)) = Ok (map Some l1 ++ repeat None count ++ map Some l3 ++ repeat None (newMax - newLength))).
        { replace (map Some (l1 ++ l2 ++ l3) ++ tl) with ((map Some l1 ++ map Some l2) ++ map Some l3 ++ tl) by (rewrite !map_app, <- !app_assoc; auto).
          rewrite !app_assoc with (l := map Some l1). rewrite ?app_length in Egl.
          rewrite mem_copy_app; rewrite ?app_length, ?map_length, ?repeat_length; auto; lia. }
        rewrite Hc2. cbn [obind].
        rewrite (Hlast (repeat None count) _) by apply repeat_length. cbn [obind]. apply Hfin.
  Qed.

  Lemma read_ok : forall a l i x, ainv a l -> nth_error l i = Some x -> read_element A a i = Ok x.
  Proof.
    intros a l i x H Hx. assert (i < length l) by (apply nth_error_Some; congruence).
    destruct H as [-> ->|tl E1 E2 E3]; [simpl in *; lia|].
    unfold read_element. rewrite E2. apply Nat.ltb_lt in H0. rewrite H0, E1. apply Nat.ltb_lt in H0.
    rewrite nth_error_app1 by (rewrite map_length; auto). rewrite nth_error_map, Hx. auto.
  Qed.

  Lemma reads_ok : forall n a l i, ainv a l -> i + n <= length l ->
    read_elements A a i n = Ok (firstn n (skipn i l)).
  Proof.
    induction n; intros; simpl; auto.
    destruct (nth_error l i) eqn:E; [|apply nth_error_None in E; lia].
    rewrite (read_ok _ _ _ _ H E). cbn [obind]. rewrite (IHn _ l) by (auto; lia). cbn [obind].
    f_equal. clear - E. revert l E. induction i; intros; destruct l; simpl in *; try discriminate; try congruence.
    rewrite IHi by auto. destruct l; auto.
  Qed.

  Lemma write_ok : forall a l i x, ainv a l -> i < length l ->
    exists a', write_element A a i x = Ok a' /\ ainv a' (upd l i x).
  Proof.
    intros a l i x H Hi. destruct H as [-> ->|tl E1 E2 E3]; [simpl in *; lia|].
    unfold write_element. rewrite E2. apply Nat.ltb_lt in Hi. rewrite Hi, E1. apply Nat.ltb_lt in Hi.
    assert (E : i <? length (map Some l ++ tl) = true) by (apply Nat.ltb_lt; rewrite app_length, map_length; lia).
    rewrite E. eexists. split; [reflexivity|]. apply (ainv_alloc _ _ tl); cbn [elements glen gmax].
    - f_equal. clear - Hi. revert i Hi. induction l; intros; simpl in *; [lia|]. destruct i; simpl; auto.
      f_equal. apply IHl. lia.
    - rewrite upd_length. auto.
    - rewrite upd_length. auto.
  Qed.

  Lemma upd_app_r : forall (l1 l2 : list A) x n, n = length l1 -> upd (l1 ++ l2) n x = l1 ++ upd l2 0 x.
  Proof. induction l1; intros; subst; simpl; auto. f_equal. apply IHl1. auto. Qed.

  Lemma writes_ok : forall new a l i, ainv a l -> i + length new <= length l ->
    exists a', write_elements A a i new = Ok a' /\ ainv a' (splice A l i (length new) new).
  Proof.
    induction new; intros b l i H Hl; simpl in *.
    - exists b. split; auto. unfold splice. simpl. rewrite Nat.add_0_r, firstn_skipn. auto.
    - destruct (write_ok b l i a H ltac:(lia)) as (a' & E & Ha'). rewrite E. cbn [obind].
      destruct (IHnew a' (upd l i a) (S i) Ha') as (a2 & E2 & Ha2); [rewrite upd_length; lia|].
      exists a2. split; auto.
      assert (Heq : splice A (upd l i a) (S i) (length new) new = splice A l i (S (length new)) (a :: new)); [|rewrite <- Heq; auto].
      destruct (list_split3 _ l i 1 ltac:(lia)) as (l1 & l2 & l3 & -> & H1 & H2).
      destruct l2 as [|y [|]]; simpl in H2; try lia. 
      rewrite upd_app_r by auto. cbn [app upd]. unfold splice.
      replace (S i) with (length (l1 ++ [a])) by (rewrite app_length; simpl; lia).
      replace (l1 ++ a :: l3) with ((l1 ++ [a]) ++ l3) by (rewrite <- app_assoc; auto).
      rewrite firstn_len_app by auto. rewrite (firstn_len_app _ l1) by auto.
      rewrite <- app_assoc. cbn [app]. f_equal. f_equal. f_equal.
      rewrite (skipn_plus_app _ (l1 ++ [a]) l3 (length new)) by auto.
      rewrite (skipn_plus_app _ l1 (y :: l3) (S (length new))) by lia. auto.
  Qed.

  Lemma splice_app : forall (l1 l2 l3 new : list A) loc len, loc = length l1 -> len = length l2 ->
    splice A (l1 ++ l2 ++ l3) loc len new = l1 ++ new ++ l3.
  Proof.
    intros. unfold splice. rewrite firstn_len_app by auto. f_equal. f_equal.
    rewrite app_assoc, skipn_len_app by (rewrite app_length; lia). auto.
  Qed.

  Lemma check_range_ok : forall loc len (l : list A), (loc + len <= INT64_MAX)%Z ->
    check_range loc len (length l) =
      Ok (if valid_range A loc len l then Some (Z.to_nat loc, Z.to_nat len) else None).
  Proof.
    intros. unfold check_range, valid_range.
    destruct ((0 <=? loc) && (0 <=? len))%Z; simpl; auto.
    apply Z.ltb_ge in H. rewrite H. destruct (loc + len <=? Z.of_nat (length l))%Z; auto.
  Qed.

  Lemma valid_range_facts : forall loc len (l : list A), valid_range A loc len l = true ->
    Z.to_nat loc + Z.to_nat len <= length l.
  Proof.
    unfold valid_range. intros. apply andb_true_iff in H. destruct H as [H H1].
    apply andb_true_iff in H. destruct H. apply Z.leb_le in H, H0, H1. lia.
  Qed.

  Lemma array_replace_range_ok : forall a l loc len new, ainv a l -> (loc + len <= INT64_MAX)%Z ->
    exists a', array_replace_range A zero a loc len new = Ok a' /\ ainv a' (seq_replace A l loc len new).
  Proof.
    intros a l loc len new H Hfit. unfold array_replace_range.
    rewrite (ainv_len _ _ H), check_range_ok by auto. cbn [obind]. unfold seq_replace.
    destruct (valid_range A loc len l) eqn:Ev; [|eauto].
    apply valid_range_facts in Ev. set (p := Z.to_nat loc) in *. set (n := Z.to_nat len) in *.
    set (ov := if n <=? length new then n else length new).
    assert (Hov : ov <= n /\ ov <= length new).
    { unfold ov. destruct (n <=? length new) eqn:E; [apply Nat.leb_le in E|apply Nat.leb_gt in E]; lia. }
    rewrite (reads_ok ov a l p H) by lia. cbn [obind].
    destruct (writes_ok (firstn ov new) a l p H) as (a1 & E1 & H1); [rewrite firstn_length; lia|].
    rewrite E1. cbn [obind]. rewrite firstn_length, Nat.min_l in H1 by lia.
    destruct (list_split3 _ l p n Ev) as (l1 & l2 & l3 & -> & Hl1 & Hl2).
    destruct (list_split3 _ l2 0 ov ltac:(lia)) as (z & l2a & l2b & -> & Hz & Hl2a).
    destruct z; [|discriminate]. cbn [app] in *. rewrite app_length in Hl2.
    rewrite (splice_app l1 (l2a ++ l2b) l3 new) by (rewrite ?app_length; lia).
    rewrite <- (app_assoc l2a) in H1. rewrite splice_app in H1 by lia.
    destruct (n <? length new) eqn:En.
    - apply Nat.ltb_lt in En. assert (ov = n) by (unfold ov; destruct (n <=? length new) eqn:E; [auto|apply Nat.leb_gt in E; lia]).
      destruct l2b; [|simpl in Hl2; lia]. cbn [app] in H1.
      destruct (replace_ok a1 _ (p + ov) 0 (Some (skipn ov new)) (length new - ov) (skipn ov new) H1) as (a2 & E2 & H2).
      + rewrite ?app_length, firstn_length. lia.
      + rewrite skipn_length. auto.
      + auto.
      + exists a2. split; auto.
        rewrite app_assoc in H2. change l3 with ([] ++ l3) in H2.
        rewrite splice_app in H2 by (auto; rewrite app_length, firstn_length; lia).
        rewrite <- app_assoc in H2. rewrite app_assoc with (l := firstn ov new) in H2.
        rewrite firstn_skipn in H2. auto.
    - apply Nat.ltb_ge in En. assert (ov = length new) by (unfold ov; destruct (n <=? length new) eqn:E; [apply Nat.leb_le in E; lia|auto]).
      rewrite firstn_all2 in H1 by lia.
      destruct (length new <? n) eqn:En2.
      + apply Nat.ltb_lt in En2. rewrite (reads_ok _ a1 _ _ H1) by (rewrite ?app_length; lia). cbn [obind].
        destruct (replace_ok a1 _ (p + ov) (n - ov) None 0 [] H1) as (a2 & E2 & H2); auto.
        * rewrite ?app_length. lia.
        * exists a2. split; auto. rewrite app_assoc in H2.
          rewrite splice_app in H2 by (rewrite ?app_length; lia). rewrite <- app_assoc in H2. auto.
      + apply Nat.ltb_ge in En2. exists a1. split; auto. destruct l2b; [auto|simpl in Hl2; lia].
  Qed.

  Lemma array_replace_collection_ok : forall a l loc len new, ainv a l -> (loc + len <= INT64_MAX)%Z ->
    exists a', array_replace_range_with_collection A zero a loc len new = Ok a' /\ ainv a' (seq_replace A l loc len new).
  Proof.
    intros a l loc len new H Hfit. unfold array_replace_range_with_collection.
    rewrite (ainv_len _ _ H), check_range_ok by auto. cbn [obind]. unfold seq_replace.
    destruct (valid_range A loc len l) eqn:Ev; [|eauto].
    apply valid_range_facts in Ev. set (p := Z.to_nat loc) in *. set (n := Z.to_nat len) in *.
    rewrite (reads_ok _ a l p H) by lia. cbn [obind].
    destruct (replace_ok a l p n None (length new) (repeat zero (length new)) H Ev) as (a1 & E1 & H1); auto.
    { apply repeat_length. }
    rewrite E1. cbn [obind].
    destruct (list_split3 _ l p n Ev) as (l1 & l2 & l3 & -> & Hl1 & Hl2).
    rewrite splice_app in * by auto.
    destruct (writes_ok new a1 _ p H1) as (a2 & E2 & H2).
    { rewrite ?app_length, repeat_length. lia. }
    exists a2. split; auto. rewrite splice_app in H2 by (rewrite ?repeat_length; auto). auto.
  Qed.

  Lemma array_step_ok : forall a l o, ainv a l -> (Z.of_nat (length l) <= INT64_MAX)%Z -> op_fits A o ->
    exists a', array_step A zero a o = Ok (a', snd (seq_step A l o)) /\ ainv a' (fst (seq_step A l o)).
  Proof.
    intros a l o H Hl Hfit.
    assert (Hrr : forall loc len new, (loc + len <= INT64_MAX)%Z -> forall P : garray A -> Prop,
       (forall a', ainv a' (seq_replace A l loc len new) -> P a') ->
       exists a', (do a' <- array_replace_range A zero a loc len new; Ok (a', @ANone A)) = Ok (a', ANone) /\ P a').
    { intros loc len new Hf P HP. destruct (array_replace_range_ok a l loc len new H Hf) as (a' & E & Ha').
      rewrite E. cbn [obind]. eauto. }
    assert (Hglen := ainv_len _ _ H).
    destruct o; cbn [array_step seq_step fst snd op_fits] in *; try (apply Hrr; auto; lia).
    - apply Hrr; [rewrite Hglen; lia|]. intros a' Ha'. rewrite Hglen in Ha'. unfold seq_replace in Ha'.
      assert (Ev : valid_range A (Z.of_nat (length l)) 0 l = true).
      { unfold valid_range. rewrite !andb_true_iff, !Z.leb_le. lia. }
      rewrite Ev, Nat2Z.id in Ha'. unfold splice in Ha'. rewrite firstn_all, skipn_all2, app_nil_r in Ha' by lia. auto.
    - destruct (array_replace_collection_ok a l loc len src H Hfit) as (a' & E & Ha').
      rewrite E. cbn [obind]. eauto.
    - apply Hrr; [rewrite Hglen; lia|]. intros a' Ha'. rewrite Hglen in Ha'. unfold seq_replace in Ha'.
      assert (Ev : valid_range A 0 (Z.of_nat (length l)) l = true).
      { unfold valid_range. rewrite !andb_true_iff, !Z.leb_le. lia. }
      rewrite Ev, Nat2Z.id in Ha'. unfold splice in Ha'. rewrite skipn_all2 in Ha' by (simpl; lia). auto.
    - exists a. split; auto. unfold array_get, check_index. rewrite Hglen.
      destruct (0 <=? i)%Z eqn:E0; cbn [andb]; auto. apply Z.leb_le in E0.
      destruct (i <? Z.of_nat (length l))%Z eqn:E1.
      + apply Z.ltb_lt in E1. destruct (nth_error l (Z.to_nat i)) eqn:En; [|apply nth_error_None in En; lia].
        rewrite (read_ok _ _ _ _ H En). auto.
      + apply Z.ltb_ge in E1. cbn [obind]. assert (En : nth_error l (Z.to_nat i) = None) by (apply nth_error_None; lia).
        rewrite En. auto.
    - exists a. split; auto. unfold array_get_range. rewrite Hglen, check_range_ok by auto. cbn [obind].
      destruct (valid_range A loc len l) eqn:Ev; auto. apply valid_range_facts in Ev.
      rewrite (reads_ok _ _ _ _ H) by lia. auto.
    - exists a. split; auto. rewrite Hglen. auto.
  Qed.

  Lemma array_run_ok : forall os a l, ainv a l -> fits A l os ->
    exists a', array_run A zero a os = Ok (a', snd (seq_run A l os)) /\ ainv a' (fst (seq_run A l os)).
  Proof.
    induction os as [|o os]; intros a l H Hf; cbn [array_run seq_run fits] in *.
    - eauto.
    - destruct Hf as (Hl & Ho & Hf). destruct (array_step_ok a l o H Hl Ho) as (a1 & E1 & H1).
      rewrite E1. cbn [obind fst snd]. destruct (IHos _ _ H1 Hf) as (a2 & E2 & H2).
      rewrite E2. cbn [obind fst snd]. destruct (seq_step A l o) as [l1 r1].
      cbn [fst snd] in *. destruct (seq_run A l1 os) as [l2 r2]. cbn [fst snd] in *. eauto.
  Qed.

  Lemma apply_ok : forall S (cb : S -> A -> S * bool) (visit : S -> list A -> S * bool),
    (forall s, visit s [] = (s, false)) ->
    (forall s x l, visit s (x :: l) = let '(s', b) := cb s x in if b then (s', true) else visit s' l) ->
    forall a l s, ainv a l -> array_apply A cb s a = Ok (visit s l).
  Proof.
    intros S cb visit V1 V2 a l s H. unfold array_apply. rewrite (ainv_len _ _ H).
    assert (G : forall n i s, i + n = length l ->
       array_apply_loop A cb s a i n = Ok (visit s (skipn i l))).
    { induction n; intros i s0 Hn; simpl.
      - rewrite skipn_all2 by lia. rewrite V1. auto.
      - destruct (nth_error l i) eqn:E; [|apply nth_error_None in E; lia].
        rewrite (read_ok _ _ _ _ H E). cbn [obind].
        assert (Es : skipn i l = a0 :: skipn (Datatypes.S i) l).
        { clear - E. revert l E. induction i; intros; destruct l; simpl in *; try discriminate; try congruence.
          rewrite IHi by auto. destruct l; auto. }
        rewrite Es, V2. destruct (cb s0 a0) as [s' b]. destruct b; auto. apply IHn. lia. }
    apply (G (length l) 0). lia.
  Qed.
End Proofs.
