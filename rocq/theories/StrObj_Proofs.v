(** Proofs about string objects and constant strings. *)
Require Import Coq.NArith.NArith Coq.ZArith.ZArith Coq.Lists.List Coq.Bool.Bool Coq.Arith.Arith Coq.micromega.Lia Coq.Sorting.Permutation.
Require Import Verif.Base Verif.String_Model Verif.StrObj_Model Verif.StrObj_Spec.
Require Verif.HashTable_Model Verif.HashTable_Spec Verif.HashTable_Proofs.
Import ListNotations.
Local Open Scope N_scope.

Lemma strhash_loop_ok : forall s h, strhash_loop (sto s) h =
  Ok (fold_left (fun h b => (31 * h + (if b <? 128 then b else b + (2^64 - 256))) mod 2^64) (cut s) h).
Proof.
  induction s as [|b s IH]; intros h; [reflexivity|]. unfold sto in *. cbn [app strhash_loop cut]. destruct (b =? 0) eqn:E; auto. rewrite IH. auto.
Qed.
Lemma strhash_ok : forall s, strhash (sto s) = Ok (poly (cut s)).
Proof. intros. apply strhash_loop_ok. Qed.
Lemma bytes_eqb_eq : forall a b, bytes_eqb a b = true <-> a = b.
Proof.
  induction a as [|x a IH]; intros [|y b]; cbn; try (split; congruence); try tauto. rewrite andb_true_iff, N.eqb_eq, IH. split; [intros [-> ->]; auto|intros E; inversion E; auto].
Qed.
Lemma strcmp_ok : forall a b, strcmp_eq (sto a) (sto b) = Ok (bytes_eqb (cut a) (cut b)).
Proof.
  unfold sto. induction a as [|x a IH]; intros b.
  - destruct b as [|y b]; cbn; auto. destruct (y =? 0) eqn:E.
    + apply N.eqb_eq in E. subst. auto. + destruct y; [discriminate|]. auto.
  - destruct b as [|y b].
    + cbn [app strcmp_eq cut]. destruct (x =? 0) eqn:E; auto.
    + cbn [app strcmp_eq cut]. destruct (x =? y) eqn:E.
      * apply N.eqb_eq in E. subst y. destruct (x =? 0); auto. cbn [bytes_eqb]. rewrite N.eqb_refl. cbn [andb]. apply IH.
      * destruct (x =? 0) eqn:E1, (y =? 0) eqn:E2; cbn [bytes_eqb]; rewrite ?E; auto. apply N.eqb_eq in E1, E2. subst. discriminate.
Qed.

(** The cache is empty or right. *)
Definition cached (o : sobj) : Prop := hcode o = 0 \/ hcode o = poly (cut (chars o)).
Definition abs1 (o : sobj) : bytes * bool := (chars o, mutable o).
Definition abs (w : world) : aworld := map abs1 w.
Definition winv (w : world) : Prop := Forall cached w /\ nth_error (abs w) 0 = Some ([], false).
Lemma nth_abs : forall w a, nth_error (abs w) a = option_map abs1 (nth_error w a).
Proof. intros. apply nth_error_map. Qed.
Lemma Forall_upd : forall A (P : A -> Prop) l i x, Forall P l -> P x -> Forall P (upd l i x).
Proof. induction l as [|y l IH]; intros i x H Hx; [destruct i; auto|]. inversion H; subst. destruct i; cbn; constructor; auto. Qed.
Lemma upd_map : forall A B (f : A -> B) l i x, map f (upd l i x) = upd (map f l) i (f x).
Proof. induction l as [|y l IH]; intros [|i] x; cbn; auto. f_equal. auto. Qed.
Lemma upd_same_nth : forall A (l : list A) i x, nth_error l i = Some x -> upd l i x = l.
Proof. induction l as [|y l IH]; intros [|i] x H; cbn in *; try discriminate; [inversion H; auto|]. f_equal. auto. Qed.
Lemma nth_upd_eq : forall A (l : list A) i x, (i < length l)%nat -> nth_error (upd l i x) i = Some x.
Proof. induction l as [|y l IH]; intros [|i] x H; cbn in *; auto; try lia. apply IH. lia. Qed.
Lemma nth_upd_ne : forall A (l : list A) i j x, i <> j -> nth_error (upd l i x) j = nth_error l j.
Proof. induction l as [|y l IH]; intros [|i] [|j] x H; cbn; auto; try congruence. Qed.
Lemma nth_lt : forall A (l : list A) i x, nth_error l i = Some x -> (i < length l)%nat.
Proof. intros. apply nth_error_Some. congruence. Qed.
Lemma aset_upd : forall w a c c0 m, nth_error w a = Some (c0, m) -> aset w a c = upd w a (c, m).
Proof.
  induction w as [|[d m'] w IH]; intros [|a] c c0 m H; cbn in *; try discriminate; [inversion H; auto|]. unfold aset in *. cbn [firstn skipn app]. f_equal. eapply IH; eauto.
Qed.

Lemma update_hash_ok : forall w a o, winv w -> nth_error w a = Some o ->
  exists w', update_hash w a = Ok w' /\ winv w' /\ abs w' = abs w /\ 
    nth_error w' a = Some (mkS (chars o) (poly (cut (chars o))) (mutable o)) /\ (forall b, b <> a -> nth_error w' b = nth_error w b).
Proof.
  intros w a o [Hw H0] Ho. unfold update_hash, get. rewrite Ho. cbn [obind].
  assert (Hc : cached o) by (rewrite Forall_forall in Hw; apply Hw; eapply nth_error_In; eauto).
  assert (Hsame : hcode o = poly (cut (chars o)) -> o = mkS (chars o) (poly (cut (chars o))) (mutable o)) by (intros E; destruct o; cbn in *; congruence).
  destruct (hcode o =? 0) eqn:E.
  - apply N.eqb_eq in E. destruct (0 <? length (chars o))%nat eqn:El.
    + rewrite strhash_ok. cbn [obind]. eexists. split; [reflexivity|].
      assert (A : abs (upd w a (mkS (chars o) (poly (cut (chars o))) (mutable o))) = abs w).
      { unfold abs. rewrite upd_map. apply upd_same_nth. rewrite nth_error_map, Ho. auto. }
      split; [split; [apply Forall_upd; auto; right; auto|rewrite A; auto]|]. split; auto. split; [apply nth_upd_eq; eapply nth_lt; eauto|].
      intros b Hb. apply nth_upd_ne. auto.
    + exists w. split; auto. split; [split; auto|]. split; auto. split; auto. apply Nat.ltb_ge in El. rewrite Ho. f_equal. apply Hsame.
      destruct (chars o); [|cbn in El; lia]. rewrite E. reflexivity.
  - apply N.eqb_neq in E. exists w. split; auto. split; [split; auto|]. split; auto. split; auto. rewrite Ho. f_equal. apply Hsame. destruct Hc; congruence.
Qed.

Definition safe_op (o : sop) : Prop := match o with OSetLength _ _ _ => False | _ => True end.
Lemma nth_abs_some : forall w a p, nth_error (abs w) a = Some p -> exists o, nth_error w a = Some o /\ p = abs1 o.
Proof. intros w a p H. rewrite nth_abs in H. destruct (nth_error w a) as [o|]; cbn in H; [|discriminate]. inversion H. eauto. Qed.
Lemma init_ok : forall w m bs, winv w ->
  winv (fst (init_string w m bs)) /\ abs (fst (init_string w m bs)) = fst (anew (abs w) m bs) /\ snd (init_string w m bs) = snd (anew (abs w) m bs) /\
  exists h, nth_error (fst (init_string w m bs)) (snd (init_string w m bs)) = Some (mkS bs h m) .
Proof.
  intros w m bs [H H0]. assert (L : length (abs w) = length w) by apply map_length.
  assert (Hl : (0 < length w)%nat) by (apply nth_error_Some; rewrite nth_abs in H0; destruct (nth_error w 0); [congruence|discriminate]).
  assert (G : winv (w ++ [mkS bs 0 m]) /\ abs (w ++ [mkS bs 0 m]) = abs w ++ [(bs, m)] /\ exists h, nth_error (w ++ [mkS bs 0 m]) (length w) = Some (mkS bs h m)).
  { split; [split|split].
    - apply Forall_app. split; auto. constructor; [left; auto|constructor].
    - unfold abs. rewrite map_app, nth_error_app1; auto. rewrite map_length. auto.
    - unfold abs. rewrite map_app. auto.
    - exists 0. rewrite nth_error_app2, Nat.sub_diag by lia. auto. }
  destruct G as (G1 & G2 & G3). unfold init_string, anew. destruct m; cbn [negb andb fst snd].
  - split; auto.
  - destruct (length bs =? 0)%nat eqn:E; cbn [fst snd]; [|auto].
    split; [split; auto|]. split; auto. split; auto. apply Nat.eqb_eq, length_zero_iff_nil in E. subst.
    apply nth_abs_some in H0. destruct H0 as (o & Ho & E). rewrite Ho. destruct o as [c h m]. inversion E. subst. eauto.
Qed.
Lemma abs_upd_hash : forall w a o h, nth_error w a = Some o -> abs (upd w a (mkS (chars o) h (mutable o))) = abs w.
Proof. intros w a o h Ho. unfold abs. rewrite upd_map. apply upd_same_nth. rewrite nth_error_map, Ho. auto. Qed.

Lemma step_ok : forall w o w' r, winv w -> safe_op o -> astep (abs w) o = Some (w', r) ->
  exists v, sstep w o = Ok (v, r) /\ winv v /\ abs v = w'.
Proof.
  intros w o w' r Hw Hs H. pose proof Hw as [Hc H0]. destruct o as [m bs|m a|a loc len bs|a|a b|a n fill]; cbn [astep sstep] in *; [| | | | |destruct Hs].
  - destruct (init_ok w m bs Hw) as (A & B & C & _). destruct (init_string w m bs) as [v c]. destruct (anew (abs w) m bs) as [u d]. cbn [fst snd] in *. inversion H; subst. eauto.
  - destruct (nth_error (abs w) a) as [[c mm]|] eqn:E; [|discriminate]. apply nth_abs_some in E. destruct E as (o & Ho & E). inversion E; subst c mm. clear E.
    unfold copy_op, get. rewrite Ho. cbn [obind]. destruct (init_ok w m (chars o) Hw) as (A & B & C & (h & D)).
    destruct (init_string w m (chars o)) as [v c]. destruct (anew (abs w) m (chars o)) as [u d]. cbn [fst snd] in *. inversion H; subst.
    rewrite D. cbn [obind chars mutable fst snd]. eexists. split; [reflexivity|].
    assert (Q : abs (upd v d (mkS (chars o) (hcode o) m)) = abs v) by (apply (abs_upd_hash v d (mkS (chars o) h m) (hcode o)); auto).
    split; [|auto]. destruct A as [A1 A2]. split; [|rewrite Q; auto]. apply Forall_upd; auto. rewrite Forall_forall in Hc. specialize (Hc o (nth_error_In _ _ Ho)). exact Hc.
  - destruct (nth_error (abs w) a) as [[c mm]|] eqn:E; [|discriminate]. pose proof E as E'. apply nth_abs_some in E. destruct E as (o & Ho & E). inversion E; subst c mm. clear E.
    unfold edit_op, get. rewrite Ho. cbn [obind]. destruct (mutable o && (loc + len <=? length (chars o))%nat) eqn:G; cbn [obind].
    + inversion H; subst. eexists. split; [reflexivity|]. apply andb_true_iff in G. destruct G as [G _].
      assert (Q : abs (upd w a (mkS (firstn loc (chars o) ++ bs ++ skipn (loc + len) (chars o)) 0 true)) = aset (abs w) a (firstn loc (chars o) ++ bs ++ skipn (loc + len) (chars o))).
      { unfold abs. rewrite upd_map. erewrite aset_upd by exact E'. rewrite G. auto. }
      split; auto. split; [apply Forall_upd; auto; left; auto|]. unfold abs. rewrite upd_map, nth_upd_ne; auto.
      intros ->. rewrite H0 in E'. inversion E'. congruence.
    + inversion H; subst. eauto.
  - destruct (nth_error (abs w) a) as [[c mm]|] eqn:E; [|discriminate]. apply nth_abs_some in E. destruct E as (o & Ho & E). inversion E; subst c mm. clear E.
    unfold hash_op. destruct (update_hash_ok w a o Hw Ho) as (v & E1 & E2 & E3 & E4 & _). rewrite E1. cbn [obind]. unfold get. rewrite E4. cbn [obind fst snd hcode]. inversion H; subst. eauto.
  - destruct (nth_error (abs w) a) as [[c mm]|] eqn:E; [|discriminate]. apply nth_abs_some in E. destruct E as (o & Ho & E). inversion E; subst c mm. clear E.
    destruct (nth_error (abs w) b) as [[c mm]|] eqn:E; [|discriminate]. apply nth_abs_some in E. destruct E as (p & Hp & E). inversion E; subst c mm. clear E.
    inversion H; subst. unfold equal_op. destruct (a =? b)%nat eqn:Eab.
    + apply Nat.eqb_eq in Eab. subst b. rewrite Ho in Hp. inversion Hp; subst. cbn [obind fst snd]. replace (bytes_eqb (cut (chars p)) (cut (chars p))) with true by (symmetry; apply bytes_eqb_eq; auto). eauto.
    + apply Nat.eqb_neq in Eab. destruct (update_hash_ok w a o Hw Ho) as (v & E1 & E2 & E3 & E4 & E5). rewrite E1. cbn [obind].
      rewrite <- (E5 b) in Hp by auto. destruct (update_hash_ok v b p E2 Hp) as (u & F1 & F2 & F3 & F4 & F5). rewrite F1. cbn [obind]. unfold get. rewrite F4, (F5 a), E4 by auto. cbn [obind hcode chars].
      destruct (poly (cut (chars o)) =? poly (cut (chars p))) eqn:G; cbn [negb].
      * rewrite strcmp_ok. cbn [obind fst snd]. eexists. split; [reflexivity|]. split; auto. congruence.
      * eexists. cbn [obind fst snd]. split; [|split; [exact F2|congruence]]. repeat f_equal. destruct (bytes_eqb (cut (chars o)) (cut (chars p))) eqn:K; auto.
        apply bytes_eqb_eq in K. rewrite K, N.eqb_refl in G. discriminate.
Qed.
Lemma run_ok : forall os w w' rs, winv w -> Forall safe_op os -> arun (abs w) os = Some (w', rs) ->
  exists v, srun w os = Ok (v, rs) /\ winv v /\ abs v = w'.
Proof.
  induction os as [|o os IH]; intros w w' rs Hw Hs H; cbn [arun srun] in *.
  - inversion H; subst. eauto.
  - inversion Hs; subst. destruct (astep (abs w) o) as [[w1 r]|] eqn:E; [|discriminate]. destruct (arun w1 os) as [[w2 rs2]|] eqn:E2; [|discriminate]. inversion H; subst.
    destruct (step_ok w o w1 r Hw) as (v & F1 & F2 & F3); auto. rewrite F1. cbn [obind fst snd]. rewrite <- F3 in E2. destruct (IH _ _ _ F2 H3 E2) as (u & G1 & G2 & G3).
    rewrite G1. cbn [obind fst snd]. eauto.
Qed.
Lemma start_inv : winv start.
Proof. split; [constructor; [left; auto|constructor]|reflexivity]. Qed.
Lemma histories : forall os w rs, Forall safe_op os -> arun astart os = Some (w, rs) ->
  exists v, srun start os = Ok (v, rs) /\ map abs1 v = w.
Proof. intros os w rs H E. destruct (run_ok os start w rs start_inv H E) as (v & A & _ & B). eauto. Qed.
Lemma cut_plain : forall s, ~ In 0 s -> cut s = s.
Proof.
  induction s as [|b s IH]; intros H; auto. cbn [cut]. destruct (b =? 0) eqn:E; [apply N.eqb_eq in E; exfalso; apply H; left; auto|]. rewrite IH; auto. intros F. apply H. right. auto.
Qed.
Lemma arun_app : forall os ps w, arun w (os ++ ps) = match arun w os with None => None | Some (w', rs) => match arun w' ps with None => None | Some (w'', qs) => Some (w'', rs ++ qs) end end.
Proof.
  induction os as [|o os IH]; intros ps w; cbn [app arun]; [destruct (arun w ps) as [[? ?]|]; auto|].
  destruct (astep w o) as [[w' r]|]; auto. rewrite IH. destruct (arun w' os) as [[w'' rs]|]; auto. destruct (arun w'' ps) as [[? ?]|]; auto.
Qed.
Lemma equal_and_hash : forall os w rs a b c d m n, Forall safe_op os -> arun astart os = Some (w, rs) ->
  nth_error w a = Some (c, m) -> nth_error w b = Some (d, n) -> ~ In 0 c -> ~ In 0 d ->
  exists v e ha hb, srun start (os ++ [OEqual a b; OHash a; OHash b]) = Ok (v, rs ++ [REqual e; RHash ha; RHash hb]) /\
    (e = true <-> c = d) /\ (e = true -> ha = hb).
Proof.
  intros os w rs a b c d m n Hs E Ha Hb Hc Hd.
  destruct (histories (os ++ [OEqual a b; OHash a; OHash b]) w (rs ++ [REqual (bytes_eqb (cut c) (cut d)); RHash (poly (cut c)); RHash (poly (cut d))])) as (v & F & _).
  - apply Forall_app. split; auto. repeat constructor.
  - rewrite arun_app, E. cbn [arun astep]. rewrite Ha, Hb. cbn [arun astep]. rewrite ?Ha, ?Hb. cbn [arun astep]. rewrite ?Hb. reflexivity.
  - exists v, (bytes_eqb (cut c) (cut d)), (poly (cut c)), (poly (cut d)). split; auto. rewrite !cut_plain by auto. split; [apply bytes_eqb_eq|]. intros G. apply bytes_eqb_eq in G. congruence.
Qed.
Lemma stale_hash : exists os v rs, srun start os = Ok (v, rs ++ [REqual false]) /\
  exists a b c m n, last os (ONew true []) = OEqual a b /\ nth_error (map abs1 v) a = Some (c, m) /\ nth_error (map abs1 v) b = Some (c, n).
Proof.
  exists [ONew true [97; 98]; OHash 1; OSetLength 1 1 []; ONew true [97]; OEqual 1 2]. eexists. exists [RAddr 1; RHash 3105; RNone; RAddr 2].
  split; [vm_compute; reflexivity|]. exists 1%nat, 2%nat, [97], true, true. repeat split.
Qed.
Lemma stale_empty : exists os v rs, srun start os = Ok (v, rs ++ [RAddr 0; REqual false]) /\
  exists b c, last os (ONew true []) = OEqual 0 b /\ nth_error (map abs1 v) 0 = Some (c, false) /\ nth_error (map abs1 v) b = Some (c, true).
Proof.
  exists [ONew true [97]; OHash 1; OSetLength 1 0 []; OCopy false 1; ONew true []; ONew false []; OEqual 0 2]. eexists. exists [RAddr 1; RHash 97; RNone; RAddr 0; RAddr 2].
  split; [vm_compute; reflexivity|]. exists 2%nat, []. repeat split.
Qed.

(** ** Constant strings *)
Module HM := Verif.HashTable_Model.
Lemma keq_equiv : HashTable_Spec.equivalence bytes bytes_eqb.
Proof.
  split; [|split].
  - intros a. apply bytes_eqb_eq. auto.
  - intros a b. destruct (bytes_eqb a b) eqn:E1, (bytes_eqb b a) eqn:E2; auto.
    + apply bytes_eqb_eq in E1. subst. assert (bytes_eqb b b = true) by (apply bytes_eqb_eq; auto). congruence.
    + apply bytes_eqb_eq in E2. subst. assert (bytes_eqb a a = true) by (apply bytes_eqb_eq; auto). congruence.
  - intros a b c H1 H2. apply bytes_eqb_eq in H1, H2. apply bytes_eqb_eq. congruence.
Qed.
Lemma keq_hash : HashTable_Spec.hash_respects bytes bytes_eqb key_hash.
Proof. intros a b H. apply bytes_eqb_eq in H. congruence. Qed.
Definition cmap := list (bytes * nat).
Definition cget (m : cmap) (k : bytes) : option nat := option_map snd (HashTable_Spec.amap_get bytes nat bytes_eqb m k).
Definition refs (t : ctable) (m : cmap) : Prop := HashTable_Proofs.refines bytes nat key_hash bytes_eqb t m.
Lemma cget_in : forall m k a, cget m k = Some a -> In (k, a) m.
Proof.
  intros m k a H. unfold cget, HashTable_Spec.amap_get in H. destruct (find _ m) as [[k' a']|] eqn:E; [|discriminate]. apply find_some in E. destruct E as [E1 E2]. cbn in *. apply bytes_eqb_eq in E2. inversion H. subst. auto.
Qed.
Definition pending (t : ithread) : list nat := match pc t with IInsert a | IFree a _ => [a] | _ => [] end.
Record cinv (g : shared) (ts : list ithread) (m : cmap) : Prop := {
  ci_none : global g = None -> m = [] /\ Forall (fun t => pc t = IStart \/ pc t = ITable) ts;
  ci_table : forall t, global g = Some t -> refs t m;
  ci_live : forall k a, In (k, a) m -> nth_error (objects g) a = Some (k, true);
  ci_nodup : NoDup (flat_map pending ts ++ map snd m);
  ci_bound : forall a, In a (flat_map pending ts) -> (a < length (objects g))%nat;
  ci_threads : Forall (fun t =>
    match pc t with
    | IAlloc => ins t = true
    | IInsert a => nth_error (objects g) a = Some (req t, true) /\ ins t = true
    | IFree a r => cget m (req t) = Some r /\ ins t = true
    | IDone (Some r) => cget m (req t) = Some r
    | IDone None => ins t = false
    | _ => True
    end) ts }.
Lemma split_thread : forall (ts : list ithread) i t, nth_error ts i = Some t -> exists l r, ts = l ++ t :: r /\ forall t', upd ts i t' = l ++ t' :: r.
Proof.
  induction ts as [|x ts IH]; intros [|i] t H; cbn in *; try discriminate.
  - inversion H; subst. exists [], ts. auto.
  - destruct (IH _ _ H) as (l & r & -> & G). exists (x :: l), r. split; auto. intros t'. cbn. rewrite G. auto.
Qed.
Lemma find_refs : forall t m k r, refs t m -> tfind t k = Ok r -> option_map snd r = cget m k.
Proof. intros t m k r H E. unfold cget. f_equal. eapply HashTable_Proofs.lookup_refines; eauto using keq_equiv, keq_hash. Qed.
Lemma thread_weaken : forall l r t t', Forall (fun t => pc t = IStart \/ pc t = ITable) (l ++ t :: r) -> (pc t' = IStart \/ pc t' = ITable) -> Forall (fun t => pc t = IStart \/ pc t = ITable) (l ++ t' :: r).
Proof. intros l r t t' H Ht. apply Forall_app in H. destruct H as [A B]. inversion B; subst. apply Forall_app. split; auto. Qed.
Lemma istep_inv : forall g ts m i t g' t', cinv g ts m -> nth_error ts i = Some t -> istep g t = Ok (g', t') ->
  exists m', cinv g' (upd ts i t') m' /\ (forall k a, cget m k = Some a -> cget m' k = Some a).
Proof.
  intros g ts m i t g' t' H Hi E. destruct (split_thread ts i t Hi) as (l & r & -> & U). rewrite U. clear U Hi.
  destruct H as [I1 I2 I3 I4 I5 I6].
  assert (T : forall (P : ithread -> Prop) t1, Forall P (l ++ t1 :: r) <-> Forall P l /\ P t1 /\ Forall P r).
  { intros P t1. rewrite Forall_app. split; [intros [A B]; inversion B; auto|intros (A & B & C); auto]. }
  assert (FP : forall t1, flat_map pending (l ++ t1 :: r) = flat_map pending l ++ pending t1 ++ flat_map pending r) by (intros; rewrite flat_map_app; auto).
  assert (Pt : pending t = match pc t with IInsert a | IFree a _ => [a] | _ => [] end) by reflexivity.
  unfold istep in E. destruct (pc t) as [| | | |a|a b|o] eqn:Ep.
  - inversion E; subst. exists m. split; auto. constructor; auto.
    + intros Hn. destruct (I1 Hn) as [-> A]. split; auto. rewrite Hn. eapply thread_weaken; eauto. 
    + rewrite FP. rewrite (FP t), Pt in I4. unfold pending at 2. destruct (global g'); auto.
    + rewrite FP. rewrite (FP t), Pt in I5. unfold pending at 2. destruct (global g'); auto.
    + apply T in I6. apply T. destruct I6 as (A & _ & B). split; auto. split; auto. destruct (global g'); cbn; auto.
  - inversion E; subst. exists m. split; auto. constructor; cbn [global objects]; auto.
    + intros Hn. destruct (global g); discriminate.
    + intros tb Htb. destruct (global g) eqn:Eg; [apply I2; congruence|]. inversion Htb. destruct (I1 eq_refl) as [-> _]. apply HashTable_Proofs.refines_init.
    + rewrite FP. rewrite (FP t), Pt in I4. auto.
    + rewrite FP. rewrite (FP t), Pt in I5. auto.
    + apply T in I6. apply T. destruct I6 as (A & _ & B). split; auto. split; auto. cbn; auto.
  - destruct (global g) as [tb|] eqn:Eg; [|discriminate]. apply obind_ok in E. destruct E as (e & Ef & E). pose proof (find_refs _ _ _ _ (I2 tb eq_refl) Ef) as Hf.
    assert (G : exists p, t' = at_pc t p /\ g' = g /\ pending t' = [] /\ match p with IAlloc => ins t = true | IDone (Some x) => cget m (req t) = Some x | IDone None => ins t = false | _ => False end).
    { destruct e as [[k a]|]; inversion E; subst.
      - eexists. repeat split. cbn in *. auto. - eexists. repeat split. + unfold pending. destruct (ins t); auto. + destruct (ins t) eqn:Ei; auto. }
    destruct G as (p & -> & -> & Gp & G). exists m. split; auto. constructor; auto; try (intros; congruence); try (intros x Hx; rewrite Eg in Hx; auto; fail).
    all: try (rewrite FP, Gp; rewrite (FP t), Pt in I4, I5; auto; fail).
    + apply T in I6. apply T. destruct I6 as (A & _ & B). split; auto. split; auto. cbn [pc at_pc]. destruct p as [| | | | | |[x|]]; try tauto; auto.
  - inversion E; subst. exists m. split; auto.
    assert (Hb : forall k a, In (k, a) m -> (a < length (objects g))%nat) by (intros k a Hka; apply nth_error_Some; rewrite (I3 _ _ Hka); congruence).
    constructor; cbn [global objects]; auto.
    + intros Hn. destruct (I1 Hn) as [-> A]. apply T in A. destruct A as (_ & A & _). rewrite Ep in A. destruct A; discriminate.
    + intros k a Hka. rewrite nth_error_app1; eauto.
    + rewrite FP. rewrite (FP t), Pt in I4. unfold pending at 2. cbn [pc at_pc app] in *. rewrite <- app_assoc. cbn [app].
      apply NoDup_Add with (a := length (objects g)) (l := (flat_map pending l ++ flat_map pending r) ++ map snd m).
      * rewrite <- app_assoc. apply Add_app.
      * split; auto. intros F. apply in_app_iff in F. destruct F as [F|F].
        -- specialize (I5 (length (objects g))). rewrite (FP t), Pt in I5. cbn [app] in I5. specialize (I5 F). lia.
        -- apply in_map_iff in F. destruct F as ([k a] & F1 & F2). cbn in F1. apply Hb in F2. lia.
    + intros a Ha. rewrite app_length. cbn. rewrite FP in Ha. unfold pending at 2 in Ha. cbn [pc at_pc app] in Ha. apply in_app_iff in Ha.
      specialize (I5 a). rewrite (FP t), Pt in I5. cbn [app] in I5. rewrite in_app_iff in I5.
      destruct Ha as [Ha|[Ha|Ha]]; [specialize (I5 (or_introl Ha))|subst|specialize (I5 (or_intror Ha))]; lia.
    + assert (Ext : forall t0, match pc t0 with IAlloc => ins t0 = true | IInsert a => nth_error (objects g) a = Some (req t0, true) /\ ins t0 = true | IFree a r0 => cget m (req t0) = Some r0 /\ ins t0 = true | IDone (Some r0) => cget m (req t0) = Some r0 | IDone None => ins t0 = false | _ => True end ->
        match pc t0 with IAlloc => ins t0 = true | IInsert a => nth_error (objects g ++ [(req t, true)]) a = Some (req t0, true) /\ ins t0 = true | IFree a r0 => cget m (req t0) = Some r0 /\ ins t0 = true | IDone (Some r0) => cget m (req t0) = Some r0 | IDone None => ins t0 = false | _ => True end).
      { intros t0. destruct (pc t0); auto. intros [A B]. split; auto. rewrite nth_error_app1; auto. eapply nth_lt; eauto. }
      apply T in I6. apply T. destruct I6 as (A & C & B). split; [eapply Forall_impl; [exact Ext|exact A]|]. split; [|eapply Forall_impl; [exact Ext|exact B]].
      cbn [pc at_pc req ins]. rewrite Ep in C. split; auto. rewrite nth_error_app2, Nat.sub_diag by lia. auto.
  - destruct (global g) as [tb|] eqn:Eg; [|discriminate]. apply obind_ok in E. destruct E as ([tb' b] & Ei & E). cbn [fst snd] in E.
    apply (HashTable_Proofs.insert_refines bytes nat key_hash bytes_eqb keq_equiv keq_hash _ _ _ _ _ _ _ (I2 tb eq_refl)) in Ei. destruct Ei as [Hr Hb].
    pose proof I6 as I6'. apply T in I6'. destruct I6' as (A6 & C6 & B6). rewrite Ep in C6. destruct C6 as [C1 C2].
    cbn [HashTable_Proofs.amap_insert] in Hr. unfold HashTable_Spec.amap_add in Hr. destruct (HashTable_Spec.amap_get bytes nat bytes_eqb m (req t)) as [[k0 a0]|] eqn:Eget; subst b.
    + apply obind_ok in E. destruct E as (e & Ef & E). pose proof (find_refs _ _ _ _ Hr Ef) as Hf. unfold cget in Hf. rewrite Eget in Hf. cbn in Hf.
      destruct e as [[k1 b1]|]; [|discriminate]. cbn in Hf. inversion Hf; subst b1.
      assert (Hg : cget m (req t) = Some a0) by (unfold cget; rewrite Eget; auto).
      assert (Hne : a0 <> a).
      { intros ->. apply cget_in in Hg. rewrite (FP t), Pt in I4. rewrite <- !app_assoc in I4. cbn [app] in I4. apply NoDup_remove_2 in I4. apply I4.
        rewrite !in_app_iff. right. right. apply in_map_iff. exists (req t, a). auto. }
      replace (a0 =? a)%nat with false in E by (symmetry; apply Nat.eqb_neq; auto). inversion E; subst. exists m. split; auto. constructor; cbn [global objects]; auto; try (intros; congruence); try (intros x Hx; inversion Hx; subst; auto; fail).
      * rewrite FP. rewrite (FP t), Pt in I4. auto.
      * rewrite FP. rewrite (FP t), Pt in I5. auto.
      * apply T. split; [exact A6|]. split; [|exact B6]. cbn [pc at_pc req ins]. split; assumption.
    + inversion E; subst. exists ((req t, a) :: m).
      assert (Hm : forall k x, cget m k = Some x -> cget ((req t, a) :: m) k = Some x).
      { intros k x Hx. unfold cget, HashTable_Spec.amap_get in *. cbn [find fst]. destruct (bytes_eqb (req t) k) eqn:Ek; auto. apply bytes_eqb_eq in Ek. subst k. rewrite Eget in Hx. discriminate. }
      split; auto. constructor; cbn [global objects]; auto; try (intros; congruence); try (intros x Hx; inversion Hx; subst; auto; fail).
      * intros k x [F|F]; auto. inversion F; subst. auto.
      * rewrite FP. rewrite (FP t), Pt in I4. unfold pending at 2. cbn [pc at_pc map snd]. cbn [app] in *. rewrite <- !app_assoc in *. cbn [app] in *.
        eapply Permutation_NoDup; [|exact I4]. apply Permutation_app_head. apply Permutation_cons_app. auto.
      * intros x Hx. apply I5. rewrite (FP t). rewrite FP in Hx. unfold pending at 2 in Hx. cbn [pc at_pc app] in Hx. rewrite !in_app_iff in *. tauto.
      * assert (Ext : forall t0, match pc t0 with IAlloc => ins t0 = true | IInsert a => nth_error (objects g) a = Some (req t0, true) /\ ins t0 = true | IFree a r0 => cget m (req t0) = Some r0 /\ ins t0 = true | IDone (Some r0) => cget m (req t0) = Some r0 | IDone None => ins t0 = false | _ => True end ->
          match pc t0 with IAlloc => ins t0 = true | IInsert a => nth_error (objects g) a = Some (req t0, true) /\ ins t0 = true | IFree _ r0 => cget ((req t, a) :: m) (req t0) = Some r0 /\ ins t0 = true | IDone (Some r0) => cget ((req t, a) :: m) (req t0) = Some r0 | IDone None => ins t0 = false | _ => True end).
        { intros t0. destruct (pc t0) as [| | | |x|x y|[x|]]; auto. intros [Q1 Q2]. auto. }
        apply T. split; [eapply Forall_impl; [exact Ext|exact A6]|]. split; [|eapply Forall_impl; [exact Ext|exact B6]].
        cbn [pc at_pc req]. unfold cget, HashTable_Spec.amap_get. cbn [find fst]. replace (bytes_eqb (req t) (req t)) with true by (symmetry; apply bytes_eqb_eq; auto). auto.
  - inversion E; subst. exists m. split; auto.
    pose proof I6 as I6'. apply T in I6'. destruct I6' as (A6 & C6 & B6). rewrite Ep in C6. destruct C6 as [C1 C2].
    assert (Hd : NoDup (flat_map pending l ++ a :: flat_map pending r ++ map snd m)) by (rewrite (FP t), Pt, <- !app_assoc in I4; exact I4).
    pose proof (NoDup_remove_2 _ _ _ Hd) as Hna. pose proof (NoDup_remove_1 _ _ _ Hd) as Hd'. rewrite !in_app_iff in Hna.
    assert (Hlen : forall x, length (upd (objects g) a x) = length (objects g)) by (intros x; generalize (objects g); clear; intros ob; revert a; induction ob as [|y ob IH]; intros [|a]; cbn; auto).
    constructor; cbn [global objects]; auto.
    + intros Hn. destruct (I1 Hn) as [-> A]. apply T in A. destruct A as (_ & A & _). rewrite Ep in A. destruct A; discriminate.
    + intros k x Hx. rewrite nth_upd_ne; auto. intros <-. apply Hna. right. right. apply in_map_iff. exists (k, a). auto.
    + rewrite FP. unfold pending at 2. cbn [pc at_pc app]. rewrite <- app_assoc. auto.
    + intros x Hx. rewrite Hlen. apply I5. rewrite (FP t). rewrite FP in Hx. unfold pending at 2 in Hx. cbn [pc at_pc app] in Hx. rewrite !in_app_iff in *. tauto.
    + assert (Ext : forall t0, ~ In a (pending t0) -> match pc t0 with IAlloc => ins t0 = true | IInsert a => nth_error (objects g) a = Some (req t0, true) /\ ins t0 = true | IFree a r0 => cget m (req t0) = Some r0 /\ ins t0 = true | IDone (Some r0) => cget m (req t0) = Some r0 | IDone None => ins t0 = false | _ => True end ->
          forall y, match pc t0 with IAlloc => ins t0 = true | IInsert z => nth_error (upd (objects g) a y) z = Some (req t0, true) /\ ins t0 = true | IFree _ r0 => cget m (req t0) = Some r0 /\ ins t0 = true | IDone (Some r0) => cget m (req t0) = Some r0 | IDone None => ins t0 = false | _ => True end).
      { intros t0 Hn Q y. unfold pending in Hn. destruct (pc t0) as [| | | |x|x z|[x|]]; try exact Q. destruct Q as [Q1 Q2]. split; auto. rewrite nth_upd_ne; auto. intros ->. apply Hn. left. auto. }
      assert (Hl : forall t0, In t0 l -> ~ In a (pending t0)) by (intros t0 H0 F; apply Hna; left; apply in_flat_map; eauto).
      assert (Hr : forall t0, In t0 r -> ~ In a (pending t0)) by (intros t0 H0 F; apply Hna; right; left; apply in_flat_map; eauto).
      rewrite Forall_forall in A6, B6. apply T. split; [apply Forall_forall; intros t0 H0; exact (Ext t0 (Hl t0 H0) (A6 t0 H0) _)|]. split; [|apply Forall_forall; intros t0 H0; exact (Ext t0 (Hr t0 H0) (B6 t0 H0) _)].
      cbn [pc at_pc req]. auto.
  - inversion E; subst. exists m. split; auto. constructor; auto.
Qed.
Lemma cinv_init : forall rs, cinv (mkSh None []) (initially rs) [].
Proof.
  intros rs. assert (P : flat_map pending (initially rs) = []) by (induction rs; auto).
  constructor; cbn [global objects].
  - intros _. split; auto. apply Forall_map. apply Forall_forall. cbn. auto.
  - discriminate.
  - intros k a [].
  - rewrite P. constructor.
  - rewrite P. intros a [].
  - apply Forall_map. apply Forall_forall. cbn. auto.
Qed.
Lemma iruns_inv : forall sched g ts m g' ts', cinv g ts m -> iruns g ts sched = Ok (g', ts') ->
  exists m', cinv g' ts' m' /\ (forall k a, cget m k = Some a -> cget m' k = Some a).
Proof.
  induction sched as [|i sched IH]; intros g ts m g' ts' H E; cbn [iruns] in E.
  - inversion E; subst. eauto.
  - destruct (nth_error ts i) as [t|] eqn:Ei; [|eauto]. apply obind_ok in E. destruct E as ([g1 t1] & E1 & E2). cbn [fst snd] in E2.
    destruct (istep_inv _ _ _ _ _ _ _ H Ei E1) as (m1 & H1 & M1). destruct (IH _ _ _ _ _ H1 E2) as (m2 & H2 & M2). exists m2. split; auto.
Qed.
Lemma iruns_req : forall sched g ts g' ts' i t', iruns g ts sched = Ok (g', ts') -> nth_error ts' i = Some t' -> exists t, nth_error ts i = Some t /\ req t = req t' /\ ins t = ins t'.
Proof.
  induction sched as [|j sched IH]; intros g ts g' ts' i t' E Hi; cbn [iruns] in E.
  - inversion E; subst. eauto.
  - destruct (nth_error ts j) as [t|] eqn:Ej; [|eauto]. apply obind_ok in E. destruct E as ([g1 t1] & E1 & E2). cbn [fst snd] in E2.
    destruct (IH _ _ _ _ _ _ E2 Hi) as (t2 & F1 & F2 & F3). destruct (Nat.eq_dec j i) as [->|Hne].
    + rewrite nth_upd_eq in F1 by (eapply nth_lt; eauto). inversion F1; subst. exists t. split; auto.
      assert (Q : req t2 = req t /\ ins t2 = ins t); [|destruct Q; split; congruence].
      unfold istep in E1. destruct (pc t) as [| | | |a|a b|o]; try (inversion E1; subst; auto; fail).
      * destruct (global g); [|discriminate]. apply obind_ok in E1. destruct E1 as ([[k a]|] & _ & E1); inversion E1; auto.
      * destruct (global g); [|discriminate]. apply obind_ok in E1. destruct E1 as ([tb b] & _ & E1). cbn [fst snd] in E1. destruct b; [inversion E1; auto|].
        apply obind_ok in E1. destruct E1 as ([[k b']|] & _ & E1); inversion E1; auto.
    + rewrite nth_upd_ne in F1 by auto. eauto.
Qed.
Theorem interning : forall rs sched g ts, iruns (mkSh None []) (initially rs) sched = Ok (g, ts) ->
  forall i t r, nth_error ts i = Some t -> pc t = IDone r ->
    exists want, nth_error rs i = Some (req t, want) /\
    (want = true -> r <> None) /\
    (forall a, r = Some a -> nth_error (objects g) a = Some (req t, true)) /\
    (forall j u a b, nth_error ts j = Some u -> pc u = IDone (Some b) -> r = Some a -> (a = b <-> req t = req u)).
Proof.
  intros rs sched g ts E i t r Hi Hp. destruct (iruns_inv _ _ _ _ _ _ (cinv_init rs) E) as (m & H & _). destruct H as [I1 I2 I3 I4 I5 I6].
  destruct (iruns_req _ _ _ _ _ _ _ E Hi) as (t0 & F1 & F2 & F3). unfold initially in F1. rewrite nth_error_map in F1. destruct (nth_error rs i) as [[k w]|] eqn:Er; [|discriminate]. cbn in F1. inversion F1; subst t0. cbn in F2, F3. subst.
  rewrite Forall_forall in I6. pose proof (I6 t (nth_error_In _ _ Hi)) as Q. rewrite Hp in Q.
  assert (L : forall k a, cget m k = Some a -> nth_error (objects g) a = Some (k, true)) by (intros; apply I3, cget_in; auto).
  exists (ins t). split; auto. split; [|split].
  - intros Hw ->. congruence.
  - intros a ->. auto.
  - intros j u a b Hj Hu ->. pose proof (I6 u (nth_error_In _ _ Hj)) as Q2. rewrite Hu in Q2. split; intros G.
    + subst b. apply L in Q, Q2. congruence.
    + rewrite G in Q. congruence.
Qed.
