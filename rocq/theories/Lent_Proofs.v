(** Proofs about lent memory: the heap. *)
Require Import Coq.Arith.Arith Coq.ZArith.ZArith Coq.NArith.NArith Coq.Lists.List Coq.Bool.Bool Coq.micromega.Lia.
Require Import Verif.Base Verif.Lent_Model Verif.Lent_Spec.
Import ListNotations.

(** ** Lists *)
Lemma upd_len {A} (l : list A) i x : i < length l -> length (Lent_Model.upd l i x) = length l.
Proof. intros H. unfold Lent_Model.upd. rewrite app_length, firstn_length. cbn [length]. rewrite skipn_length. lia. Qed.
Lemma upd_eq {A} (l : list A) i x : i < length l -> nth_error (Lent_Model.upd l i x) i = Some x.
Proof. intros H. unfold Lent_Model.upd. rewrite nth_error_app2 by (rewrite firstn_length; lia). rewrite firstn_length. replace (i - Nat.min i (length l)) with 0 by lia. reflexivity. Qed.
Lemma upd_neq {A} (l : list A) i j x : i <> j -> i < length l -> nth_error (Lent_Model.upd l i x) j = nth_error l j.
Proof.
  intros H L. unfold Lent_Model.upd. destruct (Nat.lt_ge_cases j i) as [J|J].
  - rewrite nth_error_app1 by (rewrite firstn_length; lia). rewrite <- (firstn_skipn i l) at 2. rewrite nth_error_app1 by (rewrite firstn_length; lia). reflexivity.
  - rewrite nth_error_app2 by (rewrite firstn_length; lia). rewrite firstn_length. replace (j - Nat.min i (length l)) with (S (j - S i)) by lia. cbn [nth_error].
    rewrite <- (firstn_skipn (S i) l) at 2. rewrite nth_error_app2 by (rewrite firstn_length; lia). rewrite firstn_length. f_equal. lia.
Qed.
Lemma put_upd {A} (l : list A) i x : put l i x = Lent_Model.upd l i x.
Proof. reflexivity. Qed.
Lemma nth_lt {A} (l : list A) i x : nth_error l i = Some x -> i < length l.
Proof. intros H. apply nth_error_Some. congruence. Qed.

(** ** Blocks *)
Definition over (d : list N) (off : nat) (xs : list N) : list N := firstn off d ++ xs ++ skipn (off + length xs) d.
Lemma over_len d off xs : off + length xs <= length d -> length (over d off xs) = length d.
Proof. intros H. unfold over. rewrite !app_length, firstn_length, skipn_length. lia. Qed.
Lemma over_nil d k : over d k [] = d.
Proof. unfold over. cbn [length app]. rewrite Nat.add_0_r. apply firstn_skipn. Qed.
Lemma store_ok h b l d off xs : nth_error h b = Some (mkB l (Some d)) -> off + length xs <= length d -> store h (PBlk b) off xs = Ok (Lent_Model.upd h b (mkB l (Some (over d off xs)))).
Proof. intros E L. cbn [store]. rewrite E. apply Nat.leb_le in L. rewrite L. reflexivity. Qed.
Lemma load_ok h b l d off n : nth_error h b = Some (mkB l (Some d)) -> off + n <= length d -> load h (PBlk b) off n = Ok (firstn n (skipn off d)).
Proof. intros E L. unfold load. cbn [get]. rewrite E. cbn [obind]. apply Nat.leb_le in L. rewrite L. reflexivity. Qed.
Lemma free_ok h b d : nth_error h b = Some (mkB true (Some d)) -> free h (PBlk b) = Ok (Lent_Model.upd h b (mkB true None)).
Proof. intros E. cbn [free]. rewrite E. reflexivity. Qed.
Definition zeros : list N := [0; 0; 0; 0]%N.
(** The three writes of a replacement. *)
Lemma fill p new s d : firstn (length p) d = p -> length p + length new + length s + 4 <= length d ->
  exists junk, over (over (over d (length p + length new) s) (length p) new) (length p + length new + length s) zeros = (p ++ new ++ s) ++ zeros ++ junk /\
    length p + length new + length s + 4 + length junk = length d.
Proof.
  intros P L. set (d1 := over d (length p + length new) s).
  assert (E1 : firstn (length p) d1 = p) by (unfold d1, over; rewrite firstn_app, firstn_firstn, firstn_length; replace (Nat.min (length p) (length p + length new)) with (length p) by lia; replace (length p - Nat.min (length p + length new) (length d)) with 0 by lia; cbn [firstn]; rewrite app_nil_r; exact P).
  assert (E2 : skipn (length p + length new) d1 = s ++ skipn (length p + length new + length s) d).
  { unfold d1, over. rewrite skipn_app, firstn_length. rewrite skipn_all2 by (rewrite firstn_length; lia). replace (length p + length new - Nat.min (length p + length new) (length d)) with 0 by lia. reflexivity. }
  set (d2 := over d1 (length p) new). assert (E3 : d2 = p ++ new ++ s ++ skipn (length p + length new + length s) d) by (unfold d2, over; rewrite E1, E2; reflexivity).
  exists (skipn (length p + length new + length s + 4) d). split.
  - unfold over at 1. rewrite E3. replace (p ++ new ++ s ++ skipn (length p + length new + length s) d) with ((p ++ new ++ s) ++ skipn (length p + length new + length s) d) by (rewrite <- !app_assoc; reflexivity).
    assert (K : length (p ++ new ++ s) = length p + length new + length s) by (rewrite !app_length; lia). rewrite <- K.
    rewrite firstn_app, firstn_all, Nat.sub_diag. cbn [firstn]. rewrite app_nil_r. f_equal. f_equal.
    rewrite skipn_app. rewrite skipn_all2 by (cbn [length zeros]; lia). replace (length (p ++ new ++ s) + length zeros - length (p ++ new ++ s)) with 4 by (cbn [zeros length]; lia). cbn [app].
    generalize (length (p ++ new ++ s)) as k. intros k. clear. revert k. induction d as [|x d IH]; intros k; [rewrite !skipn_nil; reflexivity|]. destruct k as [|k]; [reflexivity|]. cbn [skipn Nat.add]. apply IH.
  - rewrite skipn_length. lia.
Qed.

(** ** Arrays *)
(** An array that owns its memory and has these bytes. *)
Definition holds (h : heap) (a : array) (bs : list N) : Prop :=
  (a = init /\ bs = []) \/
  exists b m junk, a = mkA (PBlk b) (length bs) m /\ nth_error h b = Some (mkB true (Some (bs ++ zeros ++ junk))) /\ (0 < m)%Z /\ Z.of_nat (length bs + length junk) = m.
Definition block_of (a : array) : option nat := match bytes a with PBlk b => Some b | PNull => None end.
Lemma skipn_bs bs (rest : list N) loc n : loc + n <= length bs -> firstn (length bs - (loc + n)) (skipn (loc + n) (bs ++ rest)) = skipn (loc + n) bs.
Proof.
  intros L. rewrite skipn_app. replace (loc + n - length bs) with 0 by lia. cbn [skipn]. rewrite firstn_app, firstn_all2 by (rewrite skipn_length; lia). rewrite skipn_length.
  replace (length bs - (loc + n) - (length bs - (loc + n))) with 0 by lia. cbn [firstn]. apply app_nil_r.
Qed.
Lemma firstn_bs bs (rest : list N) loc : loc <= length bs -> firstn loc (bs ++ rest) = firstn loc bs.
Proof. intros L. rewrite firstn_app. replace (loc - length bs) with 0 by lia. cbn [firstn]. apply app_nil_r. Qed.
Lemma block_dec (o : option nat) c : {o = Some c} + {o <> Some c}.
Proof. repeat decide equality. Qed.
Lemma replace_ok h a bs loc n new : holds h a bs -> loc + n <= length bs -> exists h' a',
  replace h a loc n new = Ok (h', a') /\ holds h' a' (splice bs loc n new) /\
  (forall c, block_of a <> Some c -> c < length h -> nth_error h' c = nth_error h c) /\
  (block_of a' = block_of a \/ forall c, block_of a' = Some c -> length h <= c) /\ length h <= length h' /\
  forall c d, nth_error h' c = Some (mkB true (Some d)) -> block_of a' = Some c \/ (block_of a <> Some c /\ c < length h).
Proof.
  intros H L. unfold replace. destruct ((n =? 0)%nat && (length new =? 0)%nat) eqn:E0.
  { apply andb_true_iff in E0. destruct E0 as [A B]. apply Nat.eqb_eq in A. apply Nat.eqb_eq in B. subst n. destruct new; [|discriminate B]. exists h, a. split; [reflexivity|]. split; [unfold splice; rewrite Nat.add_0_r; cbn [app]; rewrite firstn_skipn; exact H|]. split; [auto|]. split; [auto|]. split; [auto|].
    intros c d D. destruct (block_dec (block_of a) c); [auto|right]. split; [auto|exact (nth_lt _ _ _ D)]. }
  assert (NE : (n <> 0 \/ length new <> 0)) by (apply andb_false_iff in E0; destruct E0 as [A|A]; apply Nat.eqb_neq in A; auto). clear E0.
  assert (LS : length (splice bs loc n new) = length bs + length new - n) by (unfold splice; rewrite !app_length, firstn_length, skipn_length; lia).
  set (p := firstn loc bs). set (s := skipn (loc + n) bs).
  assert (Lp : length p = loc) by (unfold p; rewrite firstn_length; lia). assert (Ls : length s = length bs - (loc + n)) by (unfold s; apply skipn_length).
  destruct H as [(-> & ->)|(b & m & junk & -> & B & M & LM)].
  - (* nothing allocated yet *)
    clear Lp Ls p s. cbn [length] in L. assert (loc = 0) by lia. assert (n = 0) by lia. subst loc n. cbn [len init bytes maxl is_null]. unfold resize. cbn [maxl init].
    destruct (Z.ltb_spec (Z.of_nat (0 + length new - 0)) 0); [lia|]. cbn [malloc]. set (mm := Z.max (Z.max (0 + Z.shiftr 0 2) (Z.of_nat (0 + length new - 0))) 64).
    assert (MM : (0 < mm /\ Z.of_nat (length new) <= mm)%Z) by (unfold mm; lia). clearbody mm. cbn [obind].
    assert (B : nth_error (h ++ [mkB true (Some (repeat 205%N (Z.to_nat mm + 4)))]) (length h) = Some (mkB true (Some (repeat 205%N (Z.to_nat mm + 4))))) by (rewrite nth_error_app2, Nat.sub_diag by lia; reflexivity).
    assert (LH : length h < length (h ++ [mkB true (Some (repeat 205%N (Z.to_nat mm + 4)))])) by (rewrite app_length; cbn; lia).
    rewrite (store_ok _ _ _ _ _ _ B) by (rewrite repeat_length; lia). cbn [obind]. pose proof (upd_eq _ (length h) (mkB true (Some (over (repeat 205%N (Z.to_nat mm + 4)) 0 new))) LH) as B1.
    rewrite (store_ok _ _ _ _ _ _ B1) by (rewrite over_len; rewrite repeat_length; cbn [length]; lia). cbn [obind].
    destruct (fill [] new [] (repeat 205%N (Z.to_nat mm + 4)) eq_refl ltac:(cbn [length]; rewrite repeat_length; lia)) as (jk & J1 & J2). cbn [length app Nat.add] in J1, J2. rewrite over_nil in J1.
    eexists _, _. split; [reflexivity|]. split; [|split; [|split; [|split]]].
    + right. exists (length h), mm, jk. split; [f_equal; rewrite LS; cbn [length]; lia|]. split; [|split; [lia|]].
      * rewrite upd_eq by (rewrite upd_len; lia). do 3 f_equal. unfold splice. cbn [firstn skipn app Nat.add]. rewrite !app_nil_r in *. rewrite <- J1. replace (length new + 0) with (length new) by lia. replace (0 + length new - 0) with (length new) by lia.
        unfold zeros. f_equal. lia.
      * rewrite LS. rewrite repeat_length in J2. cbn [length]. lia.
    + intros c _ Lc. rewrite upd_neq, upd_neq by (try rewrite upd_len; lia). now rewrite nth_error_app1 by lia.
    + right. intros c E. injection E as <-. lia.
    + rewrite !upd_len by (try rewrite upd_len; lia). lia.
    + intros c d D. pose proof (nth_lt _ _ _ D) as Lc. rewrite !upd_len in Lc by (try rewrite upd_len; lia). rewrite app_length in Lc. cbn [length] in Lc. destruct (Nat.eq_dec c (length h)) as [->|]; [left; reflexivity|]. right. split; [discriminate|lia].
  - cbn [len bytes maxl is_null]. unfold resize. cbn [maxl bytes]. pose proof (nth_lt _ _ _ B) as Lb.
    assert (LD : length (bs ++ zeros ++ junk) = length bs + 4 + length junk) by (rewrite !app_length; reflexivity || (cbn [zeros length]; lia)).
    destruct (Z.ltb_spec (Z.of_nat (length bs + length new - n)) m) as [Fit|Big].
    + (* in place *)
      rewrite (load_ok _ _ _ _ _ _ B) by lia. cbn [obind]. rewrite skipn_bs by lia. fold s.
      rewrite (store_ok _ _ _ _ _ _ B) by lia. cbn [obind]. set (d1 := over (bs ++ zeros ++ junk) (loc + length new) s).
      assert (L1 : length d1 = length (bs ++ zeros ++ junk)) by (apply over_len; lia). pose proof (upd_eq h b (mkB true (Some d1)) Lb) as B1.
      rewrite (store_ok _ _ _ _ _ _ B1) by lia. cbn [obind]. set (d2 := over d1 loc new). assert (L2 : length d2 = length d1) by (apply over_len; lia).
      pose proof (upd_eq (Lent_Model.upd h b (mkB true (Some d1))) b (mkB true (Some d2)) ltac:(rewrite upd_len; lia)) as B2.
      rewrite (store_ok _ _ _ _ _ _ B2) by (cbn [length]; lia). cbn [obind].
      destruct (fill p new s (bs ++ zeros ++ junk) ltac:(rewrite Lp; apply firstn_bs; lia) ltac:(lia)) as (jk & J1 & J2).
      eexists _, _. split; [reflexivity|]. split; [|split; [|split; [|split]]].
      * right. exists b, m, jk. split; [f_equal; lia|]. split; [|split; [lia|lia]].
        rewrite upd_eq by (rewrite !upd_len; try rewrite upd_len; lia). do 3 f_equal. unfold splice. fold p. fold s. rewrite <- J1. unfold d2, d1. rewrite Lp. f_equal. lia.
      * intros c C Lc. assert (b <> c) by (intros ->; apply C; reflexivity). rewrite !upd_neq by (try rewrite !upd_len; try rewrite upd_len; lia). reflexivity.
      * left. reflexivity.
      * rewrite !upd_len by (try rewrite !upd_len; try rewrite upd_len; lia). lia.
      * intros c d D. pose proof (nth_lt _ _ _ D) as Lc. rewrite !upd_len in Lc by (try rewrite !upd_len; try rewrite upd_len; lia). destruct (Nat.eq_dec b c) as [->|]; [left; reflexivity|]. right. split; [cbn; congruence|exact Lc].
    + (* moved *)
      cbn [malloc]. set (mm := Z.max (Z.max (m + Z.shiftr m 2) (Z.of_nat (length bs + length new - n))) 64).
      assert (MM : (0 < mm /\ Z.of_nat (length bs + length new - n) <= mm)%Z) by (unfold mm; lia). clearbody mm. set (d0 := repeat 205%N (Z.to_nat mm + 4)).
      assert (L0 : length d0 = Z.to_nat mm + 4) by apply repeat_length. set (h0 := h ++ [mkB true (Some d0)]). assert (LH : length h0 = S (length h)) by (unfold h0; rewrite app_length; cbn; lia).
      assert (B0 : nth_error h0 (length h) = Some (mkB true (Some d0))) by (unfold h0; rewrite nth_error_app2, Nat.sub_diag by lia; reflexivity).
      assert (Bb : nth_error h0 b = Some (mkB true (Some (bs ++ zeros ++ junk)))) by (unfold h0; rewrite nth_error_app1 by lia; exact B).
      rewrite (load_ok _ _ _ _ _ _ Bb) by lia. cbn [obind]. rewrite skipn_O, firstn_bs by lia. fold p.
      rewrite (store_ok _ _ _ _ _ _ B0) by lia. cbn [obind]. set (d1 := over d0 0 p). assert (L1 : length d1 = length d0) by (apply over_len; lia).
      set (h1 := Lent_Model.upd h0 (length h) (mkB true (Some d1))). assert (LH1 : length h1 = S (length h)) by (unfold h1; rewrite upd_len; lia).
      assert (B1 : nth_error h1 (length h) = Some (mkB true (Some d1))) by (apply upd_eq; lia). assert (Bb1 : nth_error h1 b = Some (mkB true (Some (bs ++ zeros ++ junk)))) by (unfold h1; rewrite upd_neq by lia; exact Bb).
      rewrite (load_ok _ _ _ _ _ _ Bb1) by lia. cbn [obind]. rewrite skipn_bs by lia. fold s.
      rewrite (store_ok _ _ _ _ _ _ B1) by lia. cbn [obind]. set (d2 := over d1 (loc + length new) s). assert (L2 : length d2 = length d1) by (apply over_len; lia).
      set (h2 := Lent_Model.upd h1 (length h) (mkB true (Some d2))). assert (LH2 : length h2 = S (length h)) by (unfold h2; rewrite upd_len; lia).
      assert (B2 : nth_error h2 (length h) = Some (mkB true (Some d2))) by (apply upd_eq; lia). assert (Bb2 : nth_error h2 b = Some (mkB true (Some (bs ++ zeros ++ junk)))) by (unfold h2; rewrite upd_neq by lia; exact Bb1).
      rewrite (free_ok _ _ _ Bb2). cbn [obind]. set (h3 := Lent_Model.upd h2 b (mkB true None)). assert (LH3 : length h3 = S (length h)) by (unfold h3; rewrite upd_len; lia).
      assert (B3 : nth_error h3 (length h) = Some (mkB true (Some d2))) by (unfold h3; rewrite upd_neq by lia; exact B2).
      rewrite (store_ok _ _ _ _ _ _ B3) by lia. cbn [obind]. set (d3 := over d2 loc new). assert (L3 : length d3 = length d2) by (apply over_len; lia).
      set (h4 := Lent_Model.upd h3 (length h) (mkB true (Some d3))). assert (LH4 : length h4 = S (length h)) by (unfold h4; rewrite upd_len; lia).
      assert (B4 : nth_error h4 (length h) = Some (mkB true (Some d3))) by (apply upd_eq; lia).
      rewrite (store_ok _ _ _ _ _ _ B4) by (cbn [length]; lia). cbn [obind].
      assert (P1 : firstn (length p) d1 = p) by (unfold d1, over; cbn [firstn app]; rewrite firstn_app, firstn_all, Nat.sub_diag; cbn [firstn]; apply app_nil_r).
      destruct (fill p new s d1 P1 ltac:(lia)) as (jk & J1 & J2).
      eexists _, _. split; [reflexivity|]. split; [|split; [|split; [|split]]].
      * right. exists (length h), mm, jk. split; [f_equal; lia|]. split; [|split; [lia|lia]].
        rewrite upd_eq by lia. do 3 f_equal. unfold splice. fold p. fold s. rewrite <- J1. unfold d3, d2. rewrite Lp. f_equal. lia.
      * intros c C Lc. assert (b <> c) by (intros ->; apply C; reflexivity). rewrite upd_neq by lia. unfold h4. rewrite upd_neq by lia. unfold h3. rewrite upd_neq by lia. unfold h2. rewrite upd_neq by lia. unfold h1. rewrite upd_neq by lia. unfold h0. now rewrite nth_error_app1 by lia.
      * right. intros c E. injection E as <-. lia.
      * rewrite upd_len by lia. lia.
      * intros c d D. pose proof (nth_lt _ _ _ D) as Lc. rewrite upd_len in Lc by lia. destruct (Nat.eq_dec c (length h)) as [->|]; [left; reflexivity|]. destruct (Nat.eq_dec b c) as [->|]; [|right; split; [cbn; congruence|lia]].
        exfalso. rewrite upd_neq in D by lia. unfold h4 in D. rewrite upd_neq in D by lia. unfold h3 in D. rewrite upd_eq in D by lia. discriminate D.
Qed.
