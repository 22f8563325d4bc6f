(** Proofs about node pools. *)
Require Import Coq.Lists.List Coq.ZArith.ZArith Coq.Arith.Arith Coq.Sorting.Permutation Lia.
Require Import Verif.Base Verif.NodePool_Model Verif.NodePool_Spec.
Import ListNotations.

Lemma nth_error_upd_full {A} (l : list A) n a j : n < length l -> nth_error (upd l n a) j = if j =? n then Some a else nth_error l j.
Proof.
  revert n j. induction l as [|x l IH]; intros [|n] [|j] H; cbn [length] in H; try lia; cbn; try reflexivity. apply IH. lia.
Qed.
Lemma Forall2_length {A B} (P : A -> B -> Prop) l1 l2 : Forall2 P l1 l2 -> length l1 = length l2.
Proof. induction 1; cbn; congruence. Qed.
Lemma addr_dec (a b : addr) : {a = b} + {a <> b}.
Proof. decide equality; apply Nat.eq_dec. Qed.
(** ** Memory *)
Definition exists_at (h : heap) (a : addr) : Prop := exists cs, nth_error h (fst a) = Some (Some cs) /\ snd a < length cs.
Lemma store_ok h a c : exists_at h a -> exists h', store h a c = Ok h' /\ (forall x, exists_at h x -> exists_at h' x) /\ length h' = length h /\
  load h' a = Ok c /\ (forall x, x <> a -> load h' x = load h x).
Proof.
  intros (cs & N & L). unfold store. rewrite N. rewrite (proj2 (Nat.ltb_lt _ _) L). eexists. split; [reflexivity|].
  assert (B : fst a < length h) by (apply nth_error_Some; congruence).
  split; [|split; [apply upd_length|split]].
  - intros x (cx & Nx & Lx). unfold exists_at. rewrite nth_error_upd_full by exact B. destruct (Nat.eqb_spec (fst x) (fst a)) as [E|E]; [|eauto].
    eexists. split; [reflexivity|]. rewrite upd_length. rewrite E in Nx. congruence.
  - unfold load. rewrite nth_error_upd_full by exact B. rewrite Nat.eqb_refl. rewrite nth_error_upd_full by exact L. rewrite Nat.eqb_refl. reflexivity.
  - intros x D. unfold load. rewrite nth_error_upd_full by exact B. destruct (Nat.eqb_spec (fst x) (fst a)) as [E|E]; [|reflexivity]. rewrite E, N.
    rewrite nth_error_upd_full by exact L. destruct (Nat.eqb_spec (snd x) (snd a)) as [E2|E2]; [|reflexivity]. exfalso. apply D. destruct x, a; cbn in *; congruence.
Qed.
(** ** Nodes *)
Section Size.
Context (sz : nat) (SZ : 0 < sz).
Definition node (h : heap) (a : addr) : Prop := (exists i, snd a = sz * i) /\ forall o, o < sz -> exists_at h (plus a o).
Lemma node_cells h h' a b o o' : node h a -> node h' b -> o < sz -> o' < sz -> plus a o = plus b o' -> a = b.
Proof.
  intros [[i Ea] _] [[j Eb] _] O O' E. destruct a as [ba ca], b as [bb cb]. unfold plus in E. cbn in *. injection E as <- E. subst. f_equal.
  assert (i = j) by nia. subst. reflexivity.
Qed.
Lemma plus_0 a : plus a 0 = a.
Proof. destruct a. unfold plus. cbn. rewrite Nat.add_0_r. reflexivity. Qed.
Lemma plus_plus a o k : plus (plus a o) k = plus a (o + k).
Proof. unfold plus. cbn. f_equal. lia. Qed.
(** The free list, followed through memory. *)
Inductive chain (h : heap) : option addr -> list addr -> Prop :=
| chain_nil : chain h None []
| chain_cons : forall a n c fl, load h a = Ok c -> to_ptr c = Ok n -> chain h n fl -> chain h (Some a) (a :: fl).
Lemma chain_keep h h' p fl : chain h p fl -> (forall a, In a fl -> load h' a = load h a) -> chain h' p fl.
Proof.
  induction 1 as [|a n c fl L P C IH]; intros K; [constructor|]. econstructor; [rewrite K; [exact L|left; reflexivity]|exact P|]. apply IH. intros x X. apply K. right. exact X.
Qed.
Definition holds (h : heap) (a : addr) (cs : list cell) : Prop := length cs = sz /\ forall o c, nth_error cs o = Some c -> load h (plus a o) = Ok c.
Definition starts (p : pool) : Prop := NoDup (blockList p) /\ (forall b, In b (blockList p) <-> b < length (mem p)) /\ forall b, b < length (mem p) -> exists cs, nth_error (mem p) b = Some (Some cs).
Record inv (p : pool) (ns : list addr) (cs : list (list cell)) (fl : list addr) : Prop := mkInv {
  i_size : nodeSize p = sz;
  i_chain : chain (mem p) (freeList p) fl;
  i_nodup : NoDup (fl ++ ns);
  i_nodes : forall a, In a (fl ++ ns) -> node (mem p) a;
  i_holds : Forall2 (holds (mem p)) ns cs;
  i_blocks : starts p }.
Lemma holds_keep h h' ns cs : Forall2 (holds h) ns cs -> (forall a o, In a ns -> o < sz -> load h' (plus a o) = load h (plus a o)) -> Forall2 (holds h') ns cs.
Proof.
  intros F K. induction F as [|a c ns cs [L H] F IH]; constructor.
  - split; [exact L|]. intros o x X. rewrite K; [apply H; exact X|left; reflexivity|]. rewrite <- L. apply nth_error_Some. congruence.
  - apply IH. intros; apply K; [right|]; assumption.
Qed.
Lemma node_keep h h' a : (forall x, exists_at h x -> exists_at h' x) -> node h a -> node h' a.
Proof. intros K [I N]. split; [exact I|]. intros o O. apply K. apply N. exact O. Qed.
Lemma starts_keep p h fl bl ct : starts p -> (forall x, exists_at (mem p) x -> exists_at h x) -> length h = length (mem p) -> (forall b cs, nth_error (mem p) b = Some (Some cs) -> exists cs', nth_error h b = Some (Some cs')) ->
  bl = blockList p -> starts (mkN h fl bl (nodeSize p) ct).
Proof.
  intros (N & B & C) K L S ->. unfold starts. cbn [blockList mem]. rewrite L. split; [exact N|]. split; [exact B|]. intros b H. destruct (C b H) as (cs & E). apply (S _ _ E).
Qed.
Lemma store_blocks h a c h' : store h a c = Ok h' -> forall b cs, nth_error h b = Some (Some cs) -> exists cs', nth_error h' b = Some (Some cs').
Proof.
  unfold store. destruct (nth_error h (fst a)) as [[ca|]|] eqn:E; try discriminate. destruct (snd a <? length ca); [|discriminate]. intros H b cs B. injection H as <-.
  assert (L : fst a < length h) by (apply nth_error_Some; congruence). rewrite nth_error_upd_full by exact L. destruct (b =? fst a); eauto.
Qed.
Lemma node_at h a : node h a -> exists_at h a.
Proof. intros [_ N]. rewrite <- plus_0. apply N. exact SZ. Qed.
Lemma free_ok p ns cs fl a : inv p ns cs fl -> ~ In a (fl ++ ns) -> node (mem p) a ->
  exists p', free p a = Ok p' /\ inv p' ns cs (a :: fl) /\ length (mem p') = length (mem p) /\ (forall x, exists_at (mem p) x -> exists_at (mem p') x).
Proof.
  intros I N V. unfold free. destruct (store_ok (mem p) a (to_cell (freeList p)) (node_at _ _ V)) as (h' & E & Ex & L & La & Lx). rewrite E. cbn [obind]. eexists. split; [reflexivity|].
  cbn [mem]. split; [|split; [exact L|exact Ex]].
  assert (Other : forall b o, In b (fl ++ ns) -> o < sz -> plus b o <> a).
  { intros b o B O Eq. apply N. rewrite <- (node_cells _ _ b a o 0 (i_nodes _ _ _ _ I b B) V O SZ); [exact B|]. rewrite plus_0. exact Eq. }
  constructor; cbn [mem freeList nodeSize].
  - apply (i_size _ _ _ _ I).
  - apply (chain_cons _ a (freeList p) (to_cell (freeList p))); [exact La|destruct (freeList p); reflexivity|]. apply (chain_keep (mem p)); [apply (i_chain _ _ _ _ I)|].
    intros x X. apply Lx. rewrite <- (plus_0 x). apply Other; [apply in_or_app; left; exact X|exact SZ].
  - cbn. constructor; [exact N|apply (i_nodup _ _ _ _ I)].
  - cbn. intros x [<-|X]; apply (node_keep (mem p)); auto. apply (i_nodes _ _ _ _ I x X).
  - apply (holds_keep (mem p)); [apply (i_holds _ _ _ _ I)|]. intros x o X O. apply Lx. apply Other; [apply in_or_app; right; exact X|exact O].
  - apply starts_keep; [apply (i_blocks _ _ _ _ I)|exact Ex|exact L|apply (store_blocks _ _ _ _ E)|reflexivity].
Qed.
Lemma remove_perm {A} k (l : list A) a : nth_error l k = Some a -> exists l1 l2, l = l1 ++ a :: l2 /\ remove_nth k l = l1 ++ l2.
Proof.
  unfold remove_nth. revert k. induction l as [|x l IH]; intros [|k] H; cbn in *; try discriminate.
  - injection H as <-. exists [], l. split; reflexivity.
  - destruct (IH k H) as (l1 & l2 & E & R). exists (x :: l1), l2. rewrite E at 1. split; [reflexivity|]. cbn. f_equal. exact R.
Qed.
Lemma forall2_remove {A B} (P : A -> B -> Prop) k l1 l2 : Forall2 P l1 l2 -> Forall2 P (remove_nth k l1) (remove_nth k l2).
Proof.
  intros F. revert k. induction F as [|x y l1 l2 H F IH]; intros [|k]; unfold remove_nth; cbn; try constructor; auto. apply IH.
Qed.
Lemma free_node_ok p ns cs fl k a : inv p ns cs fl -> nth_error ns k = Some a -> exists p', free p a = Ok p' /\ inv p' (remove_nth k ns) (remove_nth k cs) (a :: fl).
Proof.
  intros I K. destruct (remove_perm k ns a K) as (n1 & n2 & E & R).
  pose proof (i_nodup _ _ _ _ I) as D. assert (D2 : NoDup (a :: fl ++ remove_nth k ns)).
  { rewrite R. rewrite E in D. rewrite app_assoc in *. constructor; [apply NoDup_remove_2 in D; exact D|apply NoDup_remove_1 in D; exact D]. }
  assert (Sub : forall x, In x (fl ++ remove_nth k ns) -> In x (fl ++ ns)). { rewrite R, E. intros x. rewrite !in_app_iff. cbn. tauto. }
  assert (Ia : inv p (remove_nth k ns) (remove_nth k cs) fl).
  { constructor; [apply (i_size _ _ _ _ I)|apply (i_chain _ _ _ _ I)|inversion D2; assumption|intros x X; apply (i_nodes _ _ _ _ I); auto|apply forall2_remove; apply (i_holds _ _ _ _ I)|apply (i_blocks _ _ _ _ I)]. }
  destruct (free_ok p _ _ fl a Ia) as (p' & F & I' & _).
  - inversion D2; assumption.
  - apply (i_nodes _ _ _ _ I). rewrite E. apply in_or_app. right. apply in_or_app. right. left. reflexivity.
  - exists p'. split; assumption.
Qed.
(** ** New blocks *)
Lemma free_all_ok b n : forall p ns cs fl i, inv p ns cs fl ->
  (forall j, i <= j < i + n -> node (mem p) (b, sz * j) /\ ~ In (b, sz * j) (fl ++ ns)) ->
  exists p' fl', free_all p b i n = Ok p' /\ inv p' ns cs fl' /\ length (mem p') = length (mem p) /\ (0 < n -> fl' <> []) /\ blockList p' = blockList p.
Proof.
  induction n as [|n IH]; intros p ns cs fl i I H; cbn [free_all].
  - exists p, fl. split; [reflexivity|]. split; [exact I|]. split; [reflexivity|]. split; [lia|reflexivity].
  - rewrite (i_size _ _ _ _ I). destruct (H i ltac:(lia)) as [V N]. destruct (free_ok p ns cs fl (b, sz * i) I N V) as (p1 & F & I1 & L1 & X1). rewrite F. cbn [obind].
    destruct (IH p1 ns cs ((b, sz * i) :: fl) (S i) I1) as (p2 & fl2 & F2 & I2 & L2 & NE & BL).
    + intros j J. destruct (H j ltac:(lia)) as [Vj Nj]. split; [apply (node_keep (mem p)); assumption|]. cbn. intros [Q|Q]; [|contradiction]. injection Q as Q. nia.
    + exists p2, fl2. split; [exact F2|]. split; [exact I2|]. split; [lia|]. split.
      * intros _. destruct n; [cbn in F2; injection F2 as <-; intros ->|apply NE; lia].
        inversion I2 as [_ C2 _ _ _ _]. inversion I1 as [_ C1 _ _ _ _]. inversion C1. inversion C2. congruence.
      * rewrite BL. unfold free in F. destruct (store (mem p) (b, sz * i) _); [|discriminate|discriminate|discriminate]. cbn in F. injection F as <-. reflexivity.
Qed.
(** A state whose last block is not yet in the list of blocks. *)
Record inv0 (p : pool) (ns : list addr) (cs : list (list cell)) (fl : list addr) : Prop := mkInv0 {
  j_size : nodeSize p = sz; j_chain : chain (mem p) (freeList p) fl; j_nodup : NoDup (fl ++ ns);
  j_nodes : forall a, In a (fl ++ ns) -> node (mem p) a; j_holds : Forall2 (holds (mem p)) ns cs }.
Lemma load_app h b a : fst a < length h -> load (h ++ [b]) a = load h a.
Proof. intros L. unfold load. rewrite nth_error_app1 by exact L. reflexivity. Qed.
Lemma exists_app h b a : exists_at h a -> exists_at (h ++ [b]) a.
Proof.
  intros (cs & N & L). exists cs. split; [|exact L]. rewrite nth_error_app1; [exact N|]. apply nth_error_Some. congruence.
Qed.
Lemma exists_lt h a : exists_at h a -> fst a < length h.
Proof. intros (cs & N & _). apply nth_error_Some. congruence. Qed.
Lemma node_lt h a : node h a -> fst a < length h.
Proof. intros V. apply exists_lt. apply node_at. exact V. Qed.

Lemma inv_block p ns cs fl b blocks k : inv p ns cs fl -> b = length (mem p) -> blocks = b :: blockList p ->
  inv (mkN (mem p ++ [Some (repeat Undef (sz * k))]) (freeList p) blocks (nodeSize p) (nodeCount p)) ns cs fl.
Proof.
  intros I -> ->. assert (Nx : forall a, In a (fl ++ ns) -> node (mem p) a) by apply (i_nodes _ _ _ _ I).
  constructor; cbn [mem nodeSize freeList].
  - apply (i_size _ _ _ _ I).
  - apply (chain_keep (mem p)); [apply (i_chain _ _ _ _ I)|]. intros a A. apply load_app. apply node_lt. apply Nx. apply in_or_app. left. exact A.
  - apply (i_nodup _ _ _ _ I).
  - intros a A. apply (node_keep (mem p)); [apply exists_app|auto].
  - apply (holds_keep (mem p)); [apply (i_holds _ _ _ _ I)|]. intros a o A O. apply load_app. apply exists_lt. apply Nx; [apply in_or_app; right; exact A|exact O].
  - destruct (i_blocks _ _ _ _ I) as (N & B & C). unfold starts. cbn [blockList mem]. rewrite app_length. cbn [length]. split; [|split].
    + constructor; [rewrite B; lia|exact N].
    + intros x. cbn. rewrite B. lia.
    + intros x X. destruct (Nat.eq_dec x (length (mem p))) as [->|D]; [rewrite nth_error_app2, Nat.sub_diag by lia; cbn; eauto|]. rewrite nth_error_app1 by lia. apply C. lia.
Qed.
Lemma free_other p a p' bl : free p a = Ok p' -> free (mkN (mem p) (freeList p) bl (nodeSize p) (nodeCount p)) a = Ok (mkN (mem p') (freeList p') bl (nodeSize p') (nodeCount p')).
Proof.
  unfold free. cbn. destruct (store (mem p) a (to_cell (freeList p))); cbn; try discriminate. intros H. injection H as <-. reflexivity.
Qed.
Lemma free_all_other b n : forall p i p' bl, free_all p b i n = Ok p' -> free_all (mkN (mem p) (freeList p) bl (nodeSize p) (nodeCount p)) b i n = Ok (mkN (mem p') (freeList p') bl (nodeSize p') (nodeCount p')).
Proof.
  induction n as [|n IH]; intros p i p' bl H; cbn [free_all nodeSize] in *.
  - injection H as <-. reflexivity.
  - destruct (free p (b, nodeSize p * i)) as [p1| | |] eqn:F; cbn in H; try discriminate. rewrite (free_other _ _ _ bl F). cbn [obind]. apply IH. exact H.
Qed.
Lemma alloc_block_ok p ns cs fl count : inv p ns cs fl -> exists p' n fl', alloc_block p count = Ok (p', length (mem p), n) /\
  (forall ct, inv (mkN (mem p') (freeList p') (length (mem p) :: blockList p) (nodeSize p') ct) ns cs fl') /\ fl' <> [] /\ blockList p' = blockList p.
Proof.
  intros I. unfold alloc_block. set (k := if count <? 32 then 32 else count).
  assert (K : 0 < k) by (unfold k; destruct (Nat.ltb_spec count 32); lia).
  pose proof (inv_block p ns cs fl (length (mem p)) _ k I eq_refl eq_refl) as Ib. rewrite (i_size _ _ _ _ I) in *.
  destruct (free_all_ok (length (mem p)) k _ ns cs fl 0 Ib) as (p1 & fl1 & F & I1 & L & NE & BL).
  - intros j J. cbn [mem]. split.
    + split; [exists j; reflexivity|]. intros o O. exists (repeat Undef (sz * k)). cbn. rewrite nth_error_app2, Nat.sub_diag, repeat_length by lia. split; [reflexivity|]. nia.
    + intros A. apply (i_nodes _ _ _ _ I) in A. apply node_lt in A. cbn in A. lia.
  - pose proof (free_all_other _ _ _ _ _ (blockList p) F) as F2. cbn [mem freeList nodeSize nodeCount] in F2. rewrite F2. cbn [obind]. eexists. exists k, fl1. split; [reflexivity|].
    cbn [mem freeList nodeSize blockList]. split; [|split; [apply NE; exact K|reflexivity]]. intros ct. destruct I1 as [A1 A2 A3 A4 A5 A6]. constructor; cbn [mem freeList nodeSize]; auto.
    unfold starts in *. rewrite BL in A6. exact A6.
Qed.
Lemma add_block_ok p ns cs fl count : inv p ns cs fl -> exists p' fl', add_block p count = Ok p' /\ inv p' ns cs fl' /\ fl' <> [].
Proof.
  intros I. unfold add_block. destruct (blockList p) as [|b bs] eqn:B.
  - destruct (alloc_block_ok p ns cs fl count I) as (p' & n & fl' & E & I' & NE & BL). rewrite E. cbn [obind]. eexists. exists fl'. split; [reflexivity|]. split; [|exact NE]. rewrite B in I'. apply I'.
  - destruct (alloc_block_ok p ns cs fl (nodeCount p) I) as (p' & n & fl' & E & I' & NE & BL). rewrite E. cbn [obind]. eexists. exists fl'. split; [reflexivity|]. split; [|exact NE]. rewrite BL. apply I'.
Qed.
(** ** Allocation *)
Lemma zero_ok n : forall h a, (forall o, o < n -> exists_at h (plus a o)) -> exists h', zero h a n = Ok h' /\ (forall x, exists_at h x -> exists_at h' x) /\ length h' = length h /\
  (forall o, o < n -> load h' (plus a o) = Ok (Data 0)) /\ (forall x, (forall o, o < n -> x <> plus a o) -> load h' x = load h x) /\
  (forall b cs, nth_error h b = Some (Some cs) -> exists cs', nth_error h' b = Some (Some cs')).
Proof.
  induction n as [|n IH]; intros h a H; cbn [zero].
  - exists h. split; [reflexivity|]. split; [auto|]. split; [reflexivity|]. split; [lia|]. split; [reflexivity|eauto].
  - assert (A : exists_at h a) by (rewrite <- plus_0; apply H; lia). destruct (store_ok h a (Data 0) A) as (h1 & S1 & X1 & L1 & La & Lx). rewrite S1. cbn [obind].
    destruct (IH h1 (plus a 1)) as (h2 & S2 & X2 & L2 & Z2 & O2 & B2).
    + intros o O. rewrite plus_plus. apply X1. apply H. lia.
    + exists h2. split; [exact S2|]. split; [auto|]. split; [lia|]. split; [|split].
      * intros [|o] O; [|specialize (Z2 o ltac:(lia)); rewrite plus_plus in Z2; exact Z2]. rewrite plus_0. rewrite O2; [exact La|]. intros o _. rewrite plus_plus. destruct a. unfold plus. cbn. intros Q. injection Q as Q. lia.
      * intros x X. rewrite O2; [apply Lx; specialize (X 0 ltac:(lia)); rewrite plus_0 in X; exact X|]. intros o Oo. rewrite plus_plus. apply X. lia.
      * intros b cs B. destruct (store_blocks _ _ _ _ S1 b cs B) as (c1 & B1). apply (B2 _ _ B1).
Qed.
Lemma alloc_ok p ns cs fl : inv p ns cs fl -> exists p' a fl', alloc p = Ok (p', a) /\ inv p' (ns ++ [a]) (cs ++ [repeat (Data 0) sz]) fl' /\ ~ In a ns.
Proof.
  intros I. unfold alloc.
  assert (P : exists p1 a fl1, (match freeList p with None => add_block p 0 | Some _ => Ok p end) = Ok p1 /\ inv p1 ns cs (a :: fl1)).
  { pose proof (i_chain _ _ _ _ I) as C. destruct (freeList p) as [a|].
    - inversion C; subst. eauto 6.
    - destruct (add_block_ok p ns cs fl 0 I) as (p1 & fl' & E & I1 & NE). destruct fl' as [|a fl']; [congruence|]. eauto 6. }
  destruct P as (p1 & a & fl1 & -> & I1). cbn [obind]. clear I p fl. pose proof (i_chain _ _ _ _ I1) as C. inversion C as [|a' n c fl' L P C']. subst. rewrite L. cbn [obind]. rewrite P. cbn [obind].
  rewrite (i_size _ _ _ _ I1). assert (V : node (mem p1) a) by (apply (i_nodes _ _ _ _ I1); left; reflexivity).
  destruct (zero_ok sz (mem p1) a (proj2 V)) as (h & Z & X & Lh & Zo & Other & Bl). rewrite Z. cbn [obind]. eexists. exists a, fl1. split; [reflexivity|].
  pose proof (i_nodup _ _ _ _ I1) as D. cbn in D. inversion D as [|? ? Na D']. subst. 
  assert (Far : forall b o, In b (fl1 ++ ns) -> o < sz -> load h (plus b o) = load (mem p1) (plus b o)).
  { intros b o B O. apply Other. intros o' O' Eq. apply Na. rewrite <- (node_cells _ _ b a o o' (i_nodes _ _ _ _ I1 b (or_intror B)) V O O' Eq). exact B. }
  split; [|intros A; apply Na; apply in_or_app; right; exact A].
  constructor; cbn [mem nodeSize freeList].
  - reflexivity.
  - apply (chain_keep (mem p1)); [exact C'|]. intros b B. rewrite <- (plus_0 b). apply Far; [apply in_or_app; left; exact B|exact SZ].
  - rewrite app_assoc. apply NoDup_rev in D. cbn in D. apply NoDup_rev in D. rewrite rev_app_distr, rev_involutive in D. cbn in D.
    apply (Permutation_NoDup (l := a :: fl1 ++ ns)); [|constructor; assumption]. apply Permutation_cons_append.
  - intros b B. apply (node_keep (mem p1)); [exact X|]. apply (i_nodes _ _ _ _ I1). cbn. rewrite app_assoc, in_app_iff in B. cbn in B. tauto.
  - apply Forall2_app.
    + apply (holds_keep (mem p1)); [apply (i_holds _ _ _ _ I1)|]. intros b o B O. apply Far; [apply in_or_app; right; exact B|exact O].
    + constructor; [|constructor]. split; [apply repeat_length|]. intros o c' E. assert (O : o < sz) by (rewrite <- (repeat_length (Data 0) sz); apply nth_error_Some; congruence).
      apply nth_error_In in E. apply repeat_spec in E. subst. apply Zo. exact O.
  - rewrite <- (i_size _ _ _ _ I1) at 1. apply starts_keep; [apply (i_blocks _ _ _ _ I1)|exact X|exact Lh|exact Bl|reflexivity].
Qed.
(** ** Programs *)
Definition good (s : prog) (v : view) : Prop := (exists fl, inv (the_pool s) (nodes s) (fst v) fl) /\ seen s = snd v.
Lemma forall2_nth {A B} (P : A -> B -> Prop) l1 l2 k b : Forall2 P l1 l2 -> nth_error l2 k = Some b -> exists a, nth_error l1 k = Some a /\ P a b.
Proof. intros F. revert k. induction F as [|x y l1 l2 Q F IH]; intros [|k] H; cbn in *; try discriminate; [injection H as <-; eauto|eauto]. Qed.
Lemma forall2_upd {A B} (P : A -> B -> Prop) l1 l2 k a b : Forall2 P l1 l2 -> nth_error l1 k = Some a -> P a b -> Forall2 P l1 (upd l2 k b).
Proof.
  intros F. revert k. induction F as [|x y l1 l2 H F IH]; intros [|k] N Q; cbn in *; try discriminate; constructor; auto.
  - injection N as ->. exact Q.
Qed.
Lemma holds_other h h' a ns cs k c0 (x : addr) o : Forall2 (holds h) ns cs -> NoDup ns -> (forall b, In b ns -> node h b) -> nth_error ns k = Some a -> nth_error cs k = Some c0 -> o < sz -> x = plus a o ->
  (forall y, y <> x -> load h' y = load h y) -> forall c, load h' x = Ok c -> Forall2 (holds h') ns (upd cs k (upd c0 o c)).
Proof.
  intros F D V K C O -> Lx c Lc. revert k K C. induction F as [|b cb ns cs [L H] F IH]; intros [|k] K C; cbn in *; try discriminate.
  - injection K as ->. injection C as ->. inversion D as [|? ? Na D']; subst. constructor.
    + split; [rewrite upd_length; exact L|]. intros o' c' E. rewrite nth_error_upd_full in E by lia. destruct (Nat.eqb_spec o' o) as [->|N]; [injection E as <-; exact Lc|].
      rewrite Lx; [apply H; exact E|]. unfold plus. intros Q. injection Q as Q. lia.
    + apply (holds_keep h); [exact F|]. intros b o' B O'. apply Lx. intros Q. apply Na. rewrite <- (node_cells h h b a o' o (V b (or_intror B)) (V a (or_introl eq_refl)) O' O Q). exact B.
  - inversion D as [|? ? Na D']; subst. constructor.
    + split; [exact L|]. intros o' c' E. rewrite Lx; [apply H; exact E|]. intros Q. apply Na. apply nth_error_In in K.
      assert (O' : o' < sz) by (rewrite <- L; apply nth_error_Some; congruence).
      rewrite (node_cells h h b a o' o (V b (or_introl eq_refl)) (V a (or_intror K)) O' O Q). exact K.
    + apply IH; auto.
Qed.
Lemma exec_ok s v o v' : good s v -> means sz v o = Some v' -> exists s', exec s o = Ok s' /\ good s' v'.
Proof.
  intros [(fl & I) S] M. destruct o as [|k|k o c|k o]; cbn [means exec] in *.
  - injection M as <-. destruct (alloc_ok _ _ _ _ I) as (p' & a & fl' & E & I' & _). rewrite E. cbn [obind fst snd]. eexists. split; [reflexivity|]. split; [exists fl'; exact I'|exact S].
  - destruct (Nat.ltb_spec k (length (fst v))) as [L|L]; [|discriminate]. injection M as <-. rewrite <- (Forall2_length _ _ _ (i_holds _ _ _ _ I)) in L.
    destruct (nth_error (nodes s) k) as [a|] eqn:K; [|apply nth_error_None in K; lia]. destruct (free_node_ok _ _ _ _ k a I K) as (p' & E & I'). rewrite E. cbn [obind]. eexists. split; [reflexivity|].
    split; [exists (a :: fl); exact I'|exact S].
  - destruct (nth_error (fst v) k) as [n|] eqn:N; [|discriminate]. destruct (Nat.ltb_spec o sz) as [O|O]; [|discriminate]. injection M as <-.
    destruct (forall2_nth _ _ _ _ _ (i_holds _ _ _ _ I) N) as (a & K & Ha). rewrite K. pose proof (nth_error_In _ _ K) as Ka.
    assert (V : node (mem (the_pool s)) a) by (apply (i_nodes _ _ _ _ I); apply in_or_app; right; exact Ka).
    destruct (store_ok (mem (the_pool s)) (plus a o) c (proj2 V o O)) as (h & E & X & L & Lc & Lx). rewrite E. cbn [obind]. eexists. split; [reflexivity|]. split; [|exact S].
    exists fl. cbn [the_pool nodes fst]. constructor; cbn [mem freeList nodeSize].
    + apply (i_size _ _ _ _ I).
    + apply (chain_keep (mem (the_pool s))); [apply (i_chain _ _ _ _ I)|]. intros b B. apply Lx. intros Q. rewrite <- (plus_0 b) in Q.
      assert (b = a) by (apply (node_cells _ _ b a 0 o (i_nodes _ _ _ _ I b (in_or_app _ _ _ (or_introl B))) V SZ O Q)). subst b.
      pose proof (i_nodup _ _ _ _ I) as D. apply in_split in B as (f1 & f2 & ->). rewrite <- app_assoc in D. cbn in D. apply NoDup_remove_2 in D. apply D. rewrite !in_app_iff. tauto.
    + apply (i_nodup _ _ _ _ I).
    + intros b B. apply (node_keep (mem (the_pool s))); [exact X|apply (i_nodes _ _ _ _ I b B)].
    + apply (holds_other (mem (the_pool s)) h a (nodes s) (fst v) k n (plus a o) o); auto.
      * apply (i_holds _ _ _ _ I).
      * pose proof (i_nodup _ _ _ _ I) as D. clear - D. induction fl; [exact D|]. inversion D; auto.
      * intros b B. apply (i_nodes _ _ _ _ I). apply in_or_app. right. exact B.
    + apply starts_keep; [apply (i_blocks _ _ _ _ I)|exact X|exact L|apply (store_blocks _ _ _ _ E)|reflexivity].
  - destruct (nth_error (fst v) k) as [n|] eqn:N; [|discriminate]. destruct (nth_error n o) as [c|] eqn:C; [|discriminate]. injection M as <-.
    destruct (forall2_nth _ _ _ _ _ (i_holds _ _ _ _ I) N) as (a & K & La & Ha). rewrite K, (Ha o c C). cbn [obind]. eexists. split; [reflexivity|]. split; [exists fl; exact I|cbn; rewrite S; reflexivity].
Qed.
Lemma execs_ok os : forall s v v', good s v -> meaning sz v os = Some v' -> exists s', execs s os = Ok s' /\ good s' v'.
Proof.
  induction os as [|o os IH]; intros s v v' G M; cbn [meaning execs] in *; [injection M as <-; eauto|].
  destruct (means sz v o) as [v1|] eqn:E; [|discriminate]. destruct (exec_ok s v o v1 G E) as (s1 & X & G1). rewrite X. cbn [obind]. apply (IH s1 v1); assumption.
Qed.
Lemma start_ok count : exists s, start sz count = Ok s /\ good s ([], []).
Proof.
  unfold start, init. assert (I0 : inv (mkN [] None [] sz 0) [] [] []).
  { constructor; cbn; [reflexivity|constructor|constructor|intros a []|constructor|]. split; [constructor|]. cbn. split; [intros b; split; [intros []|lia]|lia]. }
  destruct (0 <? count).
  - destruct (add_block_ok _ _ _ _ count I0) as (p & fl & E & I & _). rewrite E. cbn [obind]. eexists. split; [reflexivity|]. split; [exists fl; exact I|reflexivity].
  - cbn [obind]. eexists. split; [reflexivity|]. split; [exists []; exact I0|reflexivity].
Qed.
Lemma pool_program count os v : meaning sz ([], []) os = Some v -> exists s0 s, start sz count = Ok s0 /\ execs s0 os = Ok s /\ seen s = snd v /\ NoDup (nodes s) /\ length (nodes s) = length (fst v) /\
  (forall k cs, nth_error (fst v) k = Some cs -> exists a, nth_error (nodes s) k = Some a /\ forall o c, nth_error cs o = Some c -> load (mem (the_pool s)) (plus a o) = Ok c).
Proof.
  intros M. destruct (start_ok count) as (s0 & S0 & G0). destruct (execs_ok os s0 _ v G0 M) as (s & X & (fl & I) & Sn). exists s0, s. split; [exact S0|]. split; [exact X|]. split; [exact Sn|]. split.
  - pose proof (i_nodup _ _ _ _ I) as D. clear - D. induction fl; [exact D|]. inversion D; auto.
  - split; [apply (Forall2_length _ _ _ (i_holds _ _ _ _ I))|]. intros k cs K. destruct (forall2_nth _ _ _ _ _ (i_holds _ _ _ _ I) K) as (a & Ka & _ & H). eauto.
Qed.
(** Finalizing frees all blocks, each once. *)
Lemma free_blocks_ok bs : forall h, NoDup bs -> (forall b, In b bs -> exists cs, nth_error h b = Some (Some cs)) ->
  exists h', free_blocks h bs = Ok h' /\ length h' = length h /\ (forall b, In b bs -> nth_error h' b = Some None) /\ (forall b, ~ In b bs -> nth_error h' b = nth_error h b).
Proof.
  induction bs as [|b bs IH]; intros h D H; cbn [free_blocks].
  - exists h. split; [reflexivity|]. split; [reflexivity|]. split; [intros b []|reflexivity].
  - inversion D as [|? ? N D']; subst. destruct (H b (or_introl eq_refl)) as (cs & E). rewrite E. assert (L : b < length h) by (apply nth_error_Some; congruence).
    destruct (IH (upd h b None) D') as (h' & F & Lh & In1 & Out).
    + intros x X. rewrite nth_error_upd_full by exact L. destruct (Nat.eqb_spec x b) as [->|]; [contradiction|apply H; right; exact X].
    + exists h'. split; [exact F|]. split; [rewrite Lh; apply upd_length|]. split.
      * intros x [<-|X]; [|apply In1; exact X]. rewrite Out by exact N. rewrite nth_error_upd_full by exact L. rewrite Nat.eqb_refl. reflexivity.
      * intros x X. cbn in X. rewrite Out by tauto. rewrite nth_error_upd_full by exact L. destruct (Nat.eqb_spec x b) as [->|]; [tauto|reflexivity].
Qed.
Lemma finalize_ok count os v s0 s : meaning sz ([], []) os = Some v -> start sz count = Ok s0 -> execs s0 os = Ok s ->
  exists p, finalize (the_pool s) = Ok p /\ length (mem p) = length (mem (the_pool s)) /\ forall b, b < length (mem p) -> nth_error (mem p) b = Some None.
Proof.
  intros M S X. destruct (start_ok count) as (s0' & S0 & G0). rewrite S in S0. injection S0 as <-. destruct (execs_ok os s0 _ v G0 M) as (s' & X' & (fl & I) & _). rewrite X in X'. injection X' as <-.
  destruct (i_blocks _ _ _ _ I) as (N & B & C). unfold finalize. destruct (free_blocks_ok (blockList (the_pool s)) (mem (the_pool s)) N) as (h & F & L & A & _).
  - intros b Hb. apply C. apply B. exact Hb.
  - rewrite F. cbn [obind]. eexists. split; [reflexivity|]. cbn [mem]. split; [exact L|]. intros b Hb. apply A. apply B. rewrite <- L. exact Hb.
Qed.
End Size.
