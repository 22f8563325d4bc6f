(** Proofs about lent memory: histories. *)
Require Import Coq.Arith.Arith Coq.ZArith.ZArith Coq.NArith.NArith Coq.Lists.List Coq.Bool.Bool Coq.micromega.Lia.
Require Import Verif.Base Verif.Lent_Model Verif.Lent_Spec Verif.Lent_Proofs Verif.Lent_Sim.
Require Verif.StrObj_Spec.
Import ListNotations.

(** The memory of the caller changes, the objects do not. *)
Lemma inv_mem strict m s h' ln' bf' : inv strict m s -> let s' := with_bufs s bf' in lends h' ln' s' ->
  (forall k b, nth_error (lent m) k = Some b -> nth_error ln' k = Some b) ->
  (forall b d, nth_error (hp m) b = Some (mkB true (Some d)) -> nth_error h' b = nth_error (hp m) b) ->
  (forall b d, nth_error h' b = Some (mkB true (Some d)) -> nth_error (hp m) b = Some (mkB true (Some d))) ->
  (forall o y k n c', object s o = Some y -> sbody y = Shows k n -> k < length (lent m) -> buffer s' k = Some c' -> exists c, buffer s k = Some c /\ length c' = length c /\
     (strict = true -> is_string (scls y) = true -> length (cut c') = length (cut c) /\ (hashed y = true -> c' = c))) ->
  inv strict (mkS h' ln' (objs m)) s'.
Proof.
  intros I s' L E F W B. constructor; cbn [hp lent objs].
  - exact L.
  - exact (i_len _ _ _ I).
  - intros o. change (look (mkS h' ln' (objs m)) o) with (look m o). change (object s' o) with (object s o). pose proof (i_rep _ _ _ I o) as R. destruct (look m o) as [x|], (object s o) as [y|] eqn:Eo; try exact R.
    eapply rep_frame; [exact R|exact E| |].
    + intros b Ob. destruct (rep_owns _ _ _ _ _ _ _ R Ob) as [d D]. eapply F. exact D.
    + intros k n c'. apply (B o y). exact Eo.
  - intros i j x y b. exact (i_dis _ _ _ I i j x y b).
  - intros b d D. exact (i_kept _ _ _ I b d (W b d D)).
Qed.
Lemma buffer_put s k z k' : k < length (bufs s) -> buffer (with_bufs s (put (bufs s) k z)) k' = if (k' =? k)%nat then z else buffer s k'.
Proof. intros L. unfold buffer, with_bufs. cbn [bufs]. change (put (bufs s) k z) with (Lent_Model.upd (bufs s) k z). destruct (Nat.eqb_spec k' k) as [->|E]; [now rewrite upd_eq|]. rewrite upd_neq by auto. reflexivity. Qed.
Lemma buffer_lt s k c : buffer s k = Some c -> k < length (bufs s).
Proof. unfold buffer. destruct (nth_error (bufs s) k) eqn:E; [|discriminate]. intros _. exact (nth_lt _ _ _ E). Qed.
Lemma lends_find h ln s k c : lends h ln s -> buffer s k = Some c -> exists b, nth_error ln k = Some b /\ nth_error h b = Some (mkB false (Some (c ++ [0%N]))).
Proof.
  intros (L & _ & K) B. pose proof (buffer_lt _ _ _ B) as Lk. rewrite <- L in Lk. destruct (nth_error ln k) as [b|] eqn:E; [|apply nth_error_None in E; lia]. exists b. split; [reflexivity|]. rewrite (K k b E), B. reflexivity.
Qed.
(** One block of the caller gets new contents. *)
Lemma lends_put h ln s k b l z : lends h ln s -> nth_error ln k = Some b -> nth_error h b = Some (mkB false l) ->
  lends (Lent_Model.upd h b (mkB false (option_map (fun c => c ++ [0%N]) z))) ln (with_bufs s (put (bufs s) k z)).
Proof.
  intros (L & N & K) E B. pose proof (nth_lt _ _ _ E) as Lk. pose proof (nth_lt _ _ _ B) as Lb. split; [|split; [exact N|]].
  - cbn [with_bufs bufs]. change (put (bufs s) k z) with (Lent_Model.upd (bufs s) k z). rewrite upd_len by lia. exact L.
  - intros k' b' E'. rewrite buffer_put by lia. destruct (Nat.eqb_spec k' k) as [->|Nk].
    + assert (b' = b) by congruence. subst b'. apply upd_eq. exact Lb.
    + rewrite upd_neq; [exact (K k' b' E')| |exact Lb]. intros <-. apply Nk. apply (proj1 (NoDup_nth_error ln) N); [exact (nth_lt _ _ _ E')|congruence].
Qed.
Lemma cut_put c i v : v <> 0%N -> nth i c 1%N <> 0%N -> i < length c -> length (cut (put c i v)) = length (cut c).
Proof.
  unfold cut. revert i. induction c as [|b c IH]; intros i V C L; [cbn in L; lia|]. destruct i as [|i].
  - cbn [put firstn skipn app StrObj_Spec.cut]. unfold put. cbn [firstn skipn app StrObj_Spec.cut]. cbn [nth] in C. destruct (N.eqb_spec v 0); [congruence|]. destruct (N.eqb_spec b 0); [congruence|]. reflexivity.
  - change (put (b :: c) (S i) v) with (b :: put c i v). cbn [StrObj_Spec.cut]. destruct (b =? 0)%N; [reflexivity|]. cbn [length]. rewrite IH; [reflexivity|exact V|exact C|cbn in L; lia].
Qed.
Lemma over_one c r i v : i < length c -> over (c ++ r) i [v] = put c i v ++ r.
Proof.
  intros L. unfold over, put. cbn [length]. replace (i + 1) with (S i) by lia. rewrite firstn_bs by lia. rewrite skipn_app. replace (S i - length c) with 0 by lia. cbn [skipn app]. now rewrite <- app_assoc.
Qed.
Lemma put_len {A} (c : list A) i v : i < length c -> length (put c i v) = length c.
Proof. exact (upd_len c i v). Qed.
Lemma agree_refl r : agree r r.
Proof. unfold agree. destruct (plain r) eqn:E; auto. Qed.
Lemma rep_has strict h ln s x c bs hh : rep strict h ln s x (mkX c (Has bs) hh) -> mutable c = true -> holds h (arr x) bs /\ extra x = None /\ class x = c.
Proof. intros (C & R & _) M. cbn [sbody scls] in *. destruct R as [(H & E)|(b & _ & _ & _ & M')]; [auto|congruence]. Qed.
Lemma holds_len h a bs : holds h a bs -> len a = length bs.
Proof. intros [(-> & ->)|(b & m & j & -> & _)]; reflexivity. Qed.
Lemma owns_holds h x bs : holds h (arr x) bs -> extra x = None -> owns x = block_of (arr x).
Proof. intros H E. unfold owns. rewrite E. destruct H as [(-> & _)|(b & m & j & -> & _ & M & _)]; [reflexivity|]. cbn [maxl]. apply Z.ltb_lt in M. now rewrite M. Qed.
Lemma shows_imm strict h ln s x c k n hh : rep strict h ln s x (mkX c (Shows k n) hh) -> mutable c = false /\ class x = c.
Proof. intros (C & R & _). cbn [sbody scls] in *. destruct R as (b & _ & _ & _ & M & _). auto. Qed.

Lemma step_ok strict m s o s' r : inv strict m s -> sstep s o = Some (s', r) -> (strict = true -> calm_op s o) ->
  exists m' r', step m o = Ok (m', r') /\ inv strict m' s' /\ agree r r' /\ (strict = true -> r' = r).
Proof.
  intros I S0 Ca. pose proof (i_lends _ _ _ I) as L. destruct o as [bs|k i v|k|k|k|a|a|a loc n bs|a i v|a|a|a|a|a b]; cbn [sstep step] in *.
  - (* Lend *) injection S0 as <- <-. eexists _, _. split; [reflexivity|]. split; [|split; [reflexivity|auto]].
    destruct L as (Ll & Nd & K). assert (Lt : forall k b, nth_error (lent m) k = Some b -> b < length (hp m)) by (intros k b E; exact (nth_lt _ _ _ (K k b E))).
    apply inv_mem; [exact I| | | | |].
    + split; [cbn [with_bufs bufs]; rewrite !app_length, Ll; reflexivity|]. split.
      * apply NoDup_nth_error. intros i j Li E. rewrite app_length in Li. cbn [length] in Li. pose proof (proj1 (NoDup_nth_error _) Nd) as Ni.
        assert (Q : forall i, nth_error (lent m ++ [length (hp m)]) i = Some (length (hp m)) -> i = length (lent m)).
        { intros q Eq. destruct (Nat.lt_ge_cases q (length (lent m))) as [Lq|Lq]; [rewrite nth_error_app1 in Eq by exact Lq; apply Lt in Eq; lia|]. pose proof (nth_lt _ _ _ Eq) as Lw. rewrite app_length in Lw. cbn in Lw. lia. }
        destruct (Nat.lt_ge_cases i (length (lent m))) as [L1|L1].
        -- destruct (Nat.lt_ge_cases j (length (lent m))) as [L2|L2]; [rewrite !nth_error_app1 in E by auto; auto|]. rewrite (nth_error_app1 (lent m) _ L1) in E. destruct (nth_error (lent m) i) as [b|] eqn:Ei; [|apply nth_error_None in Ei; lia].
           symmetry in E. pose proof (nth_lt _ _ _ E) as L3. rewrite app_length in L3. cbn in L3. assert (j = length (lent m)) by lia. subst j. rewrite nth_error_app2, Nat.sub_diag in E by lia. injection E as <-. apply Lt in Ei. lia.
        -- assert (i = length (lent m)) by lia. subst i. symmetry. apply Q. rewrite <- E. rewrite nth_error_app2, Nat.sub_diag by lia. reflexivity.
      * intros k b E. unfold buffer, with_bufs. cbn [bufs]. destruct (Nat.lt_ge_cases k (length (lent m))) as [Lk|Lk].
        -- rewrite nth_error_app1 in E by exact Lk. rewrite (nth_error_app1 (bufs s)) by lia. rewrite nth_error_app1 by exact (Lt _ _ E). exact (K k b E).
        -- pose proof (nth_lt _ _ _ E) as L3. rewrite app_length in L3. cbn in L3. assert (k = length (lent m)) by lia. subst k. rewrite nth_error_app2, Nat.sub_diag in E by lia. injection E as <-. rewrite nth_error_app2, Nat.sub_diag by lia.
           rewrite nth_error_app2 by lia. rewrite Ll, Nat.sub_diag. reflexivity.
    + intros k b E. rewrite nth_error_app1; [exact E|exact (nth_lt _ _ _ E)].
    + intros b d E. rewrite nth_error_app1; [reflexivity|exact (nth_lt _ _ _ E)].
    + intros b d D. pose proof (nth_lt _ _ _ D) as Lb. rewrite app_length in Lb. cbn [length] in Lb. destruct (Nat.eq_dec b (length (hp m))) as [->|]; [rewrite nth_error_app2, Nat.sub_diag in D by lia; discriminate D|]. rewrite nth_error_app1 in D by lia. exact D.
    + intros o y k n c' _ _ Lk Bc. exists c'. split; [|auto]. unfold buffer, with_bufs in *. cbn [bufs] in Bc. rewrite nth_error_app1 in Bc by lia. exact Bc.
  - (* Poke *) destruct (buffer s k) as [c|] eqn:Bc; [|discriminate S0]. destruct (Nat.ltb_spec i (length c)) as [Li|]; [|discriminate S0]. injection S0 as <- <-.
    destruct (lends_find _ _ _ _ _ L Bc) as (b & E & B). unfold lent_ptr. rewrite E. cbn [obind]. rewrite (store_ok _ _ _ _ _ _ B) by (rewrite app_length; cbn; lia). cbn [obind]. rewrite over_one by exact Li.
    eexists _, _. split; [reflexivity|]. split; [|split; [reflexivity|auto]]. apply inv_mem; [exact I| | | | |].
    + exact (lends_put _ _ _ _ _ _ (Some (put c i v)) L E B).
    + auto.
    + intros b' d D. apply upd_neq; [intros ->; congruence|exact (nth_lt _ _ _ B)].
    + intros b' d D. destruct (Nat.eq_dec b b') as [<-|Nb]; [rewrite upd_eq in D by exact (nth_lt _ _ _ B); discriminate D|]. rewrite upd_neq in D by (auto; exact (nth_lt _ _ _ B)). exact D.
    + intros o y k' n c' Eo Y Lk Bc'. rewrite buffer_put in Bc' by exact (buffer_lt _ _ _ Bc). destruct (Nat.eqb_spec k' k) as [->|Nk].
      * injection Bc' as <-. exists c. split; [exact Bc|]. split; [apply put_len; exact Li|]. intros S1 S2. destruct (Ca S1) as (V & Cv & Hh). split; [apply cut_put; auto|]. intros Hy. rewrite (Hh o y n Eo S2 Y) in Hy. discriminate Hy.
      * exists c'. auto.
  - (* Reclaim *) destruct (buffer s k) as [c|] eqn:Bc; [|discriminate S0]. injection S0 as <- <-.
    destruct (lends_find _ _ _ _ _ L Bc) as (b & E & B). unfold lent_ptr. rewrite E. cbn [obind]. rewrite B.
    eexists _, _. split; [reflexivity|]. split; [|split; [reflexivity|auto]]. apply inv_mem; [exact I| | | | |].
    + exact (lends_put _ _ _ _ _ _ None L E B).
    + auto.
    + intros b' d D. apply upd_neq; [intros ->; congruence|exact (nth_lt _ _ _ B)].
    + intros b' d D. destruct (Nat.eq_dec b b') as [<-|Nb]; [rewrite upd_eq in D by exact (nth_lt _ _ _ B); discriminate D|]. rewrite upd_neq in D by (auto; exact (nth_lt _ _ _ B)). exact D.
    + intros o y k' n c' Eo Y Lk Bc'. rewrite buffer_put in Bc' by exact (buffer_lt _ _ _ Bc). destruct (Nat.eqb_spec k' k) as [->|Nk]; [discriminate Bc'|]. exists c'. auto.
  - (* NoCopyString *) destruct (buffer s k) as [c|] eqn:Bc; [|discriminate S0]. injection S0 as <- <-.
    destruct (lends_find _ _ _ _ _ L Bc) as (b & E & B). unfold lent_ptr. rewrite E. cbn [obind get]. rewrite B. cbn [obind]. rewrite strlen_any. cbn [obind].
    eexists _, _. split; [reflexivity|]. split; [|split; [reflexivity|auto]]. apply inv_add; [exact I|auto| |intros b' Eb; discriminate Eb|intros b' d D; right; exact (nth_lt _ _ _ D)].
    split; [reflexivity|]. split; [|left; reflexivity]. cbn [sbody]. exists b. split; [exact E|]. split; [reflexivity|]. split; [reflexivity|]. split; [reflexivity|]. intros c' Bc'. assert (c' = c) by congruence. subst c'. split; [apply cut_le|auto].
  - (* NoCopyData *) destruct (buffer s k) as [c|] eqn:Bc; [|discriminate S0]. injection S0 as <- <-.
    destruct (lends_find _ _ _ _ _ L Bc) as (b & E & B). unfold lent_ptr. rewrite E. cbn [obind get]. rewrite B. cbn [obind]. rewrite app_length. cbn [length]. replace (length c + 1 - 1) with (length c) by lia.
    eexists _, _. split; [reflexivity|]. split; [|split; [reflexivity|auto]]. apply inv_add; [exact I|auto| |intros b' Eb; discriminate Eb|intros b' d D; right; exact (nth_lt _ _ _ D)].
    split; [reflexivity|]. split; [|intros _ Q; discriminate Q]. cbn [sbody]. exists b. split; [exact E|]. split; [reflexivity|]. split; [reflexivity|]. split; [reflexivity|]. intros c' Bc'. assert (c' = c) by congruence. subst c'. split; [lia|intros _ Q; discriminate Q].
  - (* Copy *) destruct (object s a) as [y|] eqn:Ey; [|discriminate S0]. destruct (contents s y) as [bs|] eqn:C; [|discriminate S0]. injection S0 as <- <-.
    destruct (inv_find _ _ _ _ _ I Ey) as (x & Ex & R). rewrite (find_look _ _ _ Ex). cbn [obind]. assert (Cx : class x = scls y) by apply R. unfold as_copy. rewrite Cx.
    destruct (copy_ok _ _ _ _ _ _ bs (if is_string (scls y) then Imm else scls y) L R C ltac:(destruct (scls y); reflexivity)) as (h' & x' & E & F & R' & O & W). rewrite E. cbn [obind fst snd].
    eexists _, _. split; [reflexivity|]. split; [|split; [reflexivity|auto]]. apply inv_add; auto.
  - (* MutableCopy *) destruct (object s a) as [y|] eqn:Ey; [|discriminate S0]. destruct (contents s y) as [bs|] eqn:C; [|discriminate S0]. injection S0 as <- <-.
    destruct (inv_find _ _ _ _ _ I Ey) as (x & Ex & R). rewrite (find_look _ _ _ Ex). cbn [obind]. assert (Cx : class x = scls y) by apply R. unfold as_mutable. rewrite Cx.
    destruct (copy_ok _ _ _ _ _ _ bs (if is_string (scls y) then Mut else MDat) L R C ltac:(destruct (scls y); reflexivity)) as (h' & x' & E & F & R' & O & W). rewrite E. cbn [obind fst snd].
    eexists _, _. split; [reflexivity|]. split; [|split; [reflexivity|auto]]. apply inv_add; auto.
  - (* Splice *) destruct (object s a) as [[c bd hh]|] eqn:Ey; [|discriminate S0]. destruct (inv_find _ _ _ _ _ I Ey) as (x & Ex & R). rewrite (find_look _ _ _ Ex). cbn [obind]. destruct bd as [k n0|bs0].
    + injection S0 as <- <-. destruct (shows_imm _ _ _ _ _ _ _ _ _ R) as [M Cx]. rewrite Cx, M. cbn [andb]. exists m, ONone. split; [reflexivity|]. split; [exact I|]. split; [reflexivity|auto].
    + assert (Cx : class x = c) by apply R. rewrite Cx. destruct (mutable c) eqn:M; cbn [andb] in *.
      * destruct (rep_has _ _ _ _ _ _ _ _ R M) as (H & Ex0 & _). rewrite (holds_len _ _ _ H). destruct (Nat.leb_spec (loc + n) (length bs0)) as [Lb|Lb]; injection S0 as <- <-.
        -- destruct (replace_ok _ _ _ _ _ bs H Lb) as (h' & a' & E & Ho & F & O & Lh & W). rewrite E. cbn [obind fst snd]. eexists _, _. split; [reflexivity|]. split; [|split; [reflexivity|auto]].
           pose proof (owns_holds _ _ _ H Ex0) as Ow. eapply inv_set; [exact I|exact Ex| | | |].
           ++ intros b Nb Lb'. rewrite Ow in Nb. apply F; auto.
           ++ split; [reflexivity|]. split; [left; split; [exact Ho|exact Ex0]|]. intros _ _. left. reflexivity.
           ++ intros z b Ez Ob. injection Ez as <-. erewrite owns_holds in Ob by (first [exact Ho|exact Ex0]). cbn [arr] in Ob. rewrite Ow. destruct O as [O|O]; [left; congruence|right; apply O; exact Ob].
           ++ intros b d D. rewrite Ow. destruct (W b d D) as [Q|Q]; [left|auto]. eexists. split; [reflexivity|]. erewrite owns_holds by (first [exact Ho|exact Ex0]). exact Q.
        -- exists m, ONone. split; [reflexivity|]. split; [exact I|]. split; [reflexivity|auto].
      * injection S0 as <- <-. exists m, ONone. split; [reflexivity|]. split; [exact I|]. split; [reflexivity|auto].
  - (* WritePtr *) destruct (object s a) as [[c bd hh]|] eqn:Ey; [|discriminate S0]. destruct (inv_find _ _ _ _ _ I Ey) as (x & Ex & R). rewrite (find_look _ _ _ Ex). cbn [obind]. destruct bd as [k n0|bs0].
    + injection S0 as <- <-. destruct (shows_imm _ _ _ _ _ _ _ _ _ R) as [M Cx]. rewrite Cx, M. cbn [andb]. exists m, ONone. split; [reflexivity|]. split; [exact I|]. split; [reflexivity|auto].
    + assert (Cx : class x = c) by apply R. rewrite Cx. destruct (mutable c) eqn:M; cbn [andb] in *.
      * destruct (rep_has _ _ _ _ _ _ _ _ R M) as (H & Ex0 & _). rewrite (holds_len _ _ _ H). destruct (Nat.ltb_spec i (length bs0)) as [Lb|Lb]; injection S0 as <- <-.
        -- pose proof (owns_holds _ _ _ H Ex0) as Ow. destruct H as [(_ & ->)|(b & mm & j & A & B & M1 & M2)]; [cbn in Lb; lia|]. rewrite A. cbn [bytes]. rewrite (store_ok _ _ _ _ _ _ B) by (rewrite app_length; cbn; lia). cbn [obind]. rewrite over_one by exact Lb.
           eexists _, _. split; [reflexivity|]. split; [|split; [reflexivity|auto]].
           assert (Q : inv strict (set_obj m (Lent_Model.upd (hp m) b (mkB true (Some (put bs0 i v ++ zeros ++ j)))) a (Some x)) (with_obj s a (Some (mkX c (Has (put bs0 i v)) hh)))).
           { eapply inv_set; [exact I|exact Ex| | | |].
             - intros b' Nb Lb'. rewrite Ow, A in Nb. cbn in Nb. apply upd_neq; [congruence|exact (nth_lt _ _ _ B)].
             - split; [exact Cx|]. split.
               + cbn [sbody]. left. split; [|exact Ex0]. right. exists b, mm, j. split; [rewrite A; f_equal; symmetry; apply put_len; exact Lb|]. split; [apply upd_eq; exact (nth_lt _ _ _ B)|]. rewrite put_len by exact Lb. auto.
               + intros S1 S2. destruct R as (_ & _ & Hx). destruct (Hx S1 S2) as [Z0|[Z1 _]]; [left; exact Z0|]. cbn [hashed] in Z1. pose proof (Ca S1 _ Ey S2) as Z2. cbn [hashed] in Z2. congruence.
             - intros z b' Ez Ob. injection Ez as <-. left. exact Ob.
             - intros b' d D. pose proof (nth_lt _ _ _ D) as Lb'. rewrite upd_len in Lb' by exact (nth_lt _ _ _ B). destruct (block_dec (owns x) b'); [left; eauto|auto]. }
           enough (Eq : Lent_Model.upd (objs m) a (Some x) = objs m) by (unfold set_obj in Q; rewrite Eq in Q; exact Q).
           unfold look in Ex. destruct (nth_error (objs m) a) as [z|] eqn:Ez; [|discriminate Ex]. subst z. clear - Ez. revert a Ez. induction (objs m) as [|z l IH]; intros [|a] Ez; try discriminate Ez.
           ++ injection Ez as ->. reflexivity.
           ++ cbn [nth_error] in Ez. change (Lent_Model.upd (z :: l) (S a) (Some x)) with (z :: Lent_Model.upd l a (Some x)). now rewrite (IH a Ez).
        -- exists m, ONone. split; [reflexivity|]. split; [exact I|]. split; [reflexivity|auto].
      * injection S0 as <- <-. exists m, ONone. split; [reflexivity|]. split; [exact I|]. split; [reflexivity|auto].
  - (* MakeImmutable *) destruct (object s a) as [[c bd hh]|] eqn:Ey; [|discriminate S0]. injection S0 as <- <-. destruct (inv_find _ _ _ _ _ I Ey) as (x & Ex & R). rewrite (find_look _ _ _ Ex). cbn [obind].
    eexists _, _. split; [reflexivity|]. split; [|split; [reflexivity|auto]]. eapply inv_set; [exact I|exact Ex|auto| | |].
    + destruct R as (Cx & R & H). cbn [scls sbody] in *. rewrite Cx. split; [destruct c; reflexivity|]. split.
      * cbn [sbody scls arr extra]. destruct bd as [k n|bs].
        -- destruct R as (b & E & A & X & M & T). exists b. split; [exact E|]. split; [exact A|]. split; [exact X|]. split; [destruct c; auto|]. intros c' Bc. destruct (T c' Bc) as [T1 T2]. split; [exact T1|]. intros S1 S2. apply T2; [exact S1|]. destruct c; auto.
        -- destruct R as [R|(b & A & B & X & M)]; [left; exact R|]. right. exists b. split; [exact A|]. split; [exact B|]. split; [exact X|]. destruct c; auto.
      * cbn [hash scls hashed]. intros S1 S2. exact (H S1 ltac:(destruct c; auto)).
    + intros z b Ez Ob. injection Ez as <-. left. exact Ob.
    + intros b d D. destruct (block_dec (owns x) b) as [Q|]; [left; eexists; split; [reflexivity|exact Q]|right; split; [auto|exact (nth_lt _ _ _ D)]].
  - (* Release *) destruct (object s a) as [y|] eqn:Ey; [|discriminate S0]. injection S0 as <- <-. destruct (inv_find _ _ _ _ _ I Ey) as (x & Ex & R). rewrite (find_look _ _ _ Ex). cbn [obind].
    assert (Q : exists h', (do h <- finalize (hp m) (arr x); do h <- match extra x with Some b => free h (PBlk b) | None => Ok h end; Ok (set_obj m h a None, ONone)) = Ok (set_obj m h' a None, ONone) /\ (forall b, owns x <> Some b -> b < length (hp m) -> nth_error h' b = nth_error (hp m) b) /\ forall b d, nth_error h' b = Some (mkB true (Some d)) -> owns x <> Some b /\ b < length (hp m)).
    { destruct R as (_ & R & _). unfold owns. destruct (sbody y) as [k n|bs].
      - destruct R as (b & _ & A & E & _). rewrite A, E. exists (hp m). split; [reflexivity|]. split; [auto|]. intros b' d D. split; [discriminate|exact (nth_lt _ _ _ D)].
      - destruct R as [(H & E)|(b & A & B & E & _)].
        + rewrite E. destruct H as [(A & _)|(b & mm & j & A & B & M & _)]; rewrite A; [exists (hp m); split; [reflexivity|]; split; [auto|]; intros b' d D; split; [discriminate|exact (nth_lt _ _ _ D)]|]. unfold finalize. cbn [bytes is_null negb maxl andb]. apply Z.ltb_lt in M. rewrite M. rewrite (free_ok _ _ _ B). cbn [obind].
          eexists. split; [reflexivity|]. split; [intros b' Nb _; cbn in Nb; apply upd_neq; [congruence|exact (nth_lt _ _ _ B)]|]. intros b' d D. pose proof (nth_lt _ _ _ D) as Lb. rewrite upd_len in Lb by exact (nth_lt _ _ _ B). split; [|exact Lb]. intros Q. cbn in Q. injection Q as <-. rewrite upd_eq in D by exact Lb. discriminate D.
        + rewrite A, E. unfold finalize. cbn [init_external bytes is_null negb maxl andb]. change (0 <? -1)%Z with false. cbn [obind]. rewrite (free_ok _ _ _ B). cbn [obind]. eexists. split; [reflexivity|]. split; [intros b' Nb _; cbn in Nb; apply upd_neq; [congruence|exact (nth_lt _ _ _ B)]|]. intros b' d D. pose proof (nth_lt _ _ _ D) as Lb. rewrite upd_len in Lb by exact (nth_lt _ _ _ B). split; [|exact Lb]. intros Q. cbn in Q. injection Q as <-. rewrite upd_eq in D by exact Lb. discriminate D. }
    destruct Q as (h' & E & F & W). rewrite E. eexists _, _. split; [reflexivity|]. split; [|split; [reflexivity|auto]]. eapply inv_set; [exact I|exact Ex|exact F|exact Logic.I| |]; [intros z b Ez; discriminate Ez|]. intros b d D. right. exact (W b d D).
  - (* Bytes *) destruct (object s a) as [y|] eqn:Ey; [|discriminate S0]. destruct (contents s y) as [bs|] eqn:C; [|discriminate S0]. injection S0 as <- <-. destruct (inv_find _ _ _ _ _ I Ey) as (x & Ex & R). rewrite (find_look _ _ _ Ex). cbn [obind].
    destruct (rep_get _ _ _ _ _ _ _ L R C) as (d & G & Ll & Ld & Fd & _). unfold load. rewrite G. cbn [obind Nat.add]. apply Nat.leb_le in Ld. rewrite Ld, skipn_O, Fd. cbn [obind]. exists m, (OBytes bs). split; [reflexivity|]. split; [exact I|]. split; [reflexivity|auto].
  - (* Hash *) destruct (object s a) as [y|] eqn:Ey; [|discriminate S0]. destruct (inv_find _ _ _ _ _ I Ey) as (x & Ex & R). rewrite (find_look _ _ _ Ex). cbn [obind]. assert (Cx : class x = scls y) by apply R. rewrite Cx. destruct (is_string (scls y)) eqn:Y.
    + destruct (text s y) as [t|] eqn:T; [|discriminate S0]. injection S0 as <- <-. destruct (hash_ok _ _ _ _ _ _ _ L R Y T) as (v & E & R' & V). rewrite E. cbn [obind hash].
      eexists _, _. split; [reflexivity|]. split; [|split; [reflexivity|intros S1; now rewrite (V S1)]]. eapply inv_set; [exact I|exact Ex|auto|exact R'| |]; [intros z b Ez Ob; injection Ez as <-; left; exact Ob|]. intros b0 d D. destruct (block_dec (owns x) b0) as [Q|]; [left; eexists; split; [reflexivity|exact Q]|right; split; [auto|exact (nth_lt _ _ _ D)]].
    + injection S0 as <- <-. exists m, ONone. split; [reflexivity|]. split; [exact I|]. split; [reflexivity|auto].
  - (* Equal *) destruct (object s a) as [y|] eqn:Ey; [|discriminate S0]. destruct (object s b) as [y2|] eqn:Ey2; [|discriminate S0]. destruct (inv_find _ _ _ _ _ I Ey) as (x & Ex & R). destruct (inv_find _ _ _ _ _ I Ey2) as (x2 & Ex2 & R2).
    rewrite (find_look _ _ _ Ex). cbn [obind]. rewrite (find_look _ _ _ Ex2). cbn [obind]. assert (Cx : class x = scls y) by apply R. assert (Cx2 : class x2 = scls y2) by apply R2. rewrite Cx, Cx2. destruct (is_string (scls y)) eqn:Y, (is_string (scls y2)) eqn:Y2; cbn [andb] in *;
      try (injection S0 as <- <-; exists m, ONone; split; [reflexivity|]; split; [exact I|]; split; [reflexivity|auto]).
    destruct (text s y) as [t|] eqn:T; [|discriminate S0]. destruct (text s y2) as [t2|] eqn:T2; [|discriminate S0]. destruct (Nat.eqb_spec a b) as [<-|Nab]; injection S0 as <- <-.
    + assert (y2 = y) by congruence. subst y2. assert (t2 = t) by congruence. subst t2. eexists _, _. split; [reflexivity|]. split; [exact I|]. split; [reflexivity|]. intros _. fold (same t t). now rewrite same_refl.
    + destruct (hash_ok _ _ _ _ _ _ _ L R Y T) as (v & E & R' & V). rewrite E. cbn [obind]. set (x' := mkO (class x) (arr x) v (extra x)) in *.
      destruct (hash_ok _ _ _ _ _ _ _ L R2 Y2 T2) as (v2 & E2 & R2' & V2). change (hp (set_obj m (hp m) a (Some x'))) with (hp m). rewrite E2. cbn [obind]. set (x2' := mkO (class x2) (arr x2) v2 (extra x2)) in *.
      assert (I1 : inv strict (set_obj m (hp m) a (Some x')) (with_obj s a (Some (mark y)))) by (eapply inv_set; [exact I|exact Ex|auto|exact R'| |]; [intros z b0 Ez Ob; injection Ez as <-; left; exact Ob|]; intros b0 d D; destruct (block_dec (owns x) b0) as [Q|]; [left; eexists; split; [reflexivity|exact Q]|right; split; [auto|exact (nth_lt _ _ _ D)]]).
      assert (I2 : inv strict (set_obj (set_obj m (hp m) a (Some x')) (hp m) b (Some x2')) (with_obj (with_obj s a (Some (mark y))) b (Some (mark y2)))).
      { eapply inv_set; [exact I1| |auto|exact R2'| |].
        - rewrite look_upd by exact (look_lt _ _ _ Ex). destruct (Nat.eqb_spec b a); [congruence|exact Ex2].
        - intros z b0 Ez Ob. injection Ez as <-. left. exact Ob.
        - intros b0 d D. destruct (block_dec (owns x2) b0) as [Q|]; [left; eexists; split; [reflexivity|exact Q]|right; split; [auto|exact (nth_lt _ _ _ D)]]. }
      change (hp (set_obj (set_obj m (hp m) a (Some x')) (hp m) b (Some x2'))) with (hp m). change (hp (set_obj m (hp m) a (Some x'))) with (hp m).
      change (hash x') with v. change (hash x2') with v2. change (arr x') with (arr x). change (arr x2') with (arr x2). fold (same t t2).
      destruct (rep_text _ _ _ _ _ _ _ L R Y T) as (l & r1 & G & C1 & _). destruct (rep_text _ _ _ _ _ _ _ L R2 Y2 T2) as (l2 & r2 & G2 & C2 & _).
      destruct (N.eqb_spec v v2) as [Ev|Ev]; cbn [negb].
      * rewrite G, G2. cbn [obind]. rewrite same_cstr_any, C1, C2. cbn [obind]. eexists _, _. split; [reflexivity|]. split; [exact I2|]. split; [reflexivity|auto].
      * eexists _, _. split; [reflexivity|]. split; [exact I2|]. split; [reflexivity|]. intros S1. f_equal. unfold same. destruct (list_eq_dec N.eq_dec t t2) as [->|]; [|reflexivity]. exfalso. apply Ev. now rewrite (V S1), (V2 S1).
Qed.

Lemma start_inv strict : inv strict start nothing.
Proof.
  constructor.
  - split; [reflexivity|]. split; [constructor|]. intros k b E. destruct k; discriminate E.
  - reflexivity.
  - intros o. unfold look, object. destruct o; exact Logic.I.
  - intros i j x y b E. unfold look in E. destruct i; discriminate E.
  - intros b d D. destruct b; discriminate D.
Qed.
Lemma run_ok strict ops : forall m s s' rs, inv strict m s -> srun s ops = Some (s', rs) -> (strict = true -> calm s ops) ->
  exists m' rs', run m ops = Ok (m', rs') /\ inv strict m' s' /\ Forall2 agree rs rs' /\ (strict = true -> rs' = rs).
Proof.
  induction ops as [|o ops IH]; intros m s s' rs I S0 C; cbn [srun run calm] in *.
  - injection S0 as <- <-. exists m, []. auto.
  - destruct (sstep s o) as [[s1 r]|] eqn:E; [|discriminate S0]. destruct (srun s1 ops) as [[t rs1]|] eqn:E1; [|discriminate S0]. injection S0 as <- <-.
    destruct (step_ok _ _ _ _ _ _ I E (fun q => proj1 (C q))) as (m1 & r1 & A & I1 & G & V). rewrite A. cbn [obind fst snd]. destruct (IH m1 s1 t rs1 I1 E1 (fun q => proj2 (C q))) as (m2 & rs2 & A2 & I2 & G2 & V2). rewrite A2. cbn [obind fst snd].
    exists m2, (r1 :: rs2). split; [reflexivity|]. split; [exact I2|]. split; [constructor; assumption|]. intros S1. now rewrite (V S1), (V2 S1).
Qed.

Lemma shows ops s rs : srun nothing ops = Some (s, rs) -> exists m rs', run start ops = Ok (m, rs') /\ Forall2 agree rs rs' /\
  forall k c, buffer s k = Some c -> memory m k = Some (c ++ [0%N]).
Proof.
  intros E. destruct (run_ok false ops _ _ _ _ (start_inv false) E ltac:(discriminate)) as (m & rs' & A & I & G & _). exists m, rs'. split; [exact A|]. split; [exact G|].
  intros k c B. destruct (lends_find _ _ _ _ _ (i_lends _ _ _ I) B) as (b & E1 & E2). unfold memory. rewrite E1, E2. reflexivity.
Qed.
Lemma gives_back ops s rs m rs' : srun nothing ops = Some (s, rs) -> run start ops = Ok (m, rs') -> (forall o, object s o = None) -> forall b, In b (hp m) -> lib b = true -> data b = None.
Proof.
  intros E R No b Hb Lb. destruct (run_ok false ops _ _ _ _ (start_inv false) E ltac:(discriminate)) as (m' & rs1 & A & I & _). assert (m' = m) by congruence. subst m'.
  apply In_nth_error in Hb. destruct Hb as [n Hn]. destruct b as [l [d|]]; [|reflexivity]. cbn in Lb. subst l. destruct (i_kept _ _ _ I n d Hn) as (o & x & Ex & _). pose proof (i_rep _ _ _ I o) as Q. rewrite Ex, No in Q. contradiction.
Qed.
Lemma answers ops s rs : srun nothing ops = Some (s, rs) -> calm nothing ops -> exists m, run start ops = Ok (m, rs).
Proof. intros E C. destruct (run_ok true ops _ _ _ _ (start_inv true) E (fun _ => C)) as (m & rs' & A & _ & _ & V). exists m. now rewrite A, (V eq_refl). Qed.
